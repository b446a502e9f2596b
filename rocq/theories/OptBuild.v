(** The implementations modelled: the reference builds (BuildSpec.v) and the four vector directories.

    Which files a vector directory compiles is taken from its Makefile: shake-avx2/Makefile:7,
    shake-a64/Makefile:6, sha2-avx2/Makefile:8, haraka-aesni/Makefile:8; most of the files
    are links to ref/ or to shake-avx2/.  [Opt o] has the suite of one-lane hash functions, the
    multi-lane hash functions and the number of lanes (2^[o_lw]) of that directory. *)
From Verif Require Import Base Params Address Suite Sign Lanes LaneMerkleProofs SignX BuildSpec
  HashShake HashSha2 HashHaraka LaneKeccak LaneShake LaneShakeOk LaneSha2 HarakaNi.

Inductive opt_build := ShakeAvx2 | ShakeA64 | Sha2Avx2 | HarakaAesni.

Definition o_family (o : opt_build) : family :=
  match o with ShakeAvx2 | ShakeA64 => SHAKE | Sha2Avx2 => SHA2 | HarakaAesni => HARAKA end.
Definition o_lw (o : opt_build) : nat :=
  match o with ShakeAvx2 => 2 | ShakeA64 => 1 | Sha2Avx2 => 3 | HarakaAesni => 2 end.

(** What uninitialised memory holds: the byte arrays and vectors of the hash functions, and the
    arrays of the rest of the code. *)
Record uninit := mkUninit { u_hash : nat -> nat -> Z; u_vec : nat -> nat -> Z; u_core : nat -> nat -> Z }.

Definition o_suite (o : opt_build) (robust : bool) (P : params) (u : uninit) : suite :=
  match o with
  | ShakeAvx2 => shake_suite P (u_hash u) robust
  | ShakeA64 => shake_a64_suite P (u_hash u) (u_vec u) robust
  | Sha2Avx2 => sha2_suite P (u_hash u) robust
  | HarakaAesni => ni_suite P (u_hash u) robust
  end.
Definition o_lanes (o : opt_build) (robust : bool) (P : params) (u : uninit) : lane_fns (o_suite o robust P u) :=
  match o with
  | ShakeAvx2 => shake_avx2_lanes P (u_hash u) (u_vec u) robust
  | ShakeA64 => shake_a64_lanes P (u_hash u) (u_vec u) robust
  | Sha2Avx2 => sha2_avx2_lanes (u_hash u) (u_vec u) P robust
  | HarakaAesni => ni_lanes P (u_hash u) robust
  end.
(** The parameters the hash code of a directory is written for: the SHAKE ones copy whole 64-bit
    words of the n-byte strings. *)
Definition o_n (o : opt_build) (P : params) : Prop :=
  match o with ShakeAvx2 | ShakeA64 => words_n P | Sha2Avx2 | HarakaAesni => (p_n P <= 32)%nat end.

Inductive impl := Ref (f : family) | Opt (o : opt_build).
Definition i_family (i : impl) : family := match i with Ref f => f | Opt o => o_family o end.
(** The parameter sets an implementation is for (all shipped ones: C42_impl_params). *)
Definition i_ok (i : impl) (P : params) : Prop :=
  wf_params P = true /\ match i with Ref _ => (p_n P <= 32)%nat | Opt o => o_n o P /\ lanes_fit P (o_lw o) end.

(** The API of an implementation. *)
Section Api.
Variable i : impl.
Variable robust : bool.
Variable P : params.
Variable u : uninit.
Definition i_suite : suite :=
  match i with Ref f => build f robust P (u_hash u) | Opt o => o_suite o robust P u end.
Definition i_seed_keypair : bytes -> bytes -> bytes -> option (Z * bytes * bytes) :=
  match i with
  | Ref f => crypto_sign_seed_keypair P (build f robust P (u_hash u)) (u_core u)
  | Opt o => crypto_sign_seed_keypairx P (o_suite o robust P u) (o_lanes o robust P u) (o_lw o) (u_core u)
  end.
Definition i_keypair : bytes -> bytes -> bytes -> option (Z * bytes * bytes * bytes) :=
  match i with
  | Ref f => crypto_sign_keypair P (build f robust P (u_hash u)) (u_core u)
  | Opt o => crypto_sign_keypairx P (o_suite o robust P u) (o_lanes o robust P u) (o_lw o) (u_core u)
  end.
Definition i_signature : bytes -> bytes -> bytes -> bytes -> option (Z * bytes * Z * bytes) :=
  match i with
  | Ref f => crypto_sign_signature P (build f robust P (u_hash u)) (u_core u)
  | Opt o => crypto_sign_signaturex P (o_suite o robust P u) (o_lanes o robust P u) (o_lw o) (u_core u)
  end.
Definition i_verify : bytes -> Z -> bytes -> bytes -> option Z :=
  match i with
  | Ref f => crypto_sign_verify P (build f robust P (u_hash u)) (u_core u)
  | Opt o => crypto_sign_verifyx P (o_suite o robust P u) (o_lanes o robust P u) (o_lw o) (u_core u)
  end.
Definition i_sign : bytes -> bytes -> bytes -> bytes -> option (Z * bytes * Z * bytes) :=
  match i with
  | Ref f => crypto_sign P (build f robust P (u_hash u)) (u_core u)
  | Opt o => crypto_signx P (o_suite o robust P u) (o_lanes o robust P u) (o_lw o) (u_core u)
  end.
Definition i_open : bytes -> bytes -> Z -> bytes -> option (Z * bytes * Z) :=
  match i with
  | Ref f => crypto_sign_open P (build f robust P (u_hash u)) (u_core u)
  | Opt o => crypto_sign_openx P (o_suite o robust P u) (o_lanes o robust P u) (o_lw o) (u_core u)
  end.
End Api.
