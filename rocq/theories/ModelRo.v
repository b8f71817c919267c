(** rand/, seed/, hashing to scalars and ro/. *)
From Coq Require Import ZArith Lia List Bool String.
From Verif Require Import Base Zmod Fields ModelScalar ModelXmd.
Import ListNotations.
Open Scope Z_scope.

Section Ro.
Context {X : Oracles}.

(** ** rand/chacha20.go *)

(** rand/chacha20.go:8-21 ChaCha20: the cipher state is the key and the number
    of key-stream bytes already consumed. *)
Record rng := mkrng { rng_key : bytes; rng_pos : nat }.

(** rand/chacha20.go:12-21 NewChaCha20: panics unless the key has 32 bytes. *)
Definition new_chacha (seed : bytes) : res rng :=
  if blen seed =? 32 then Ok (mkrng seed 0) else Panic.

(** the next [n] key-stream bytes; the cipher behind rand/chacha20.go:35-37 *)
Definition ks_bytes (r : rng) (n : nat) : bytes :=
  map (fun i => keystream (rng_key r) i) (seq (rng_pos r) n).
(** the position of the cipher behind rand/chacha20.go:35-37 after the call *)
Definition rng_skip (r : rng) (n : nat) : rng := mkrng (rng_key r) (rng_pos r + n).

(** rand/chacha20.go:35-37 FillUint8: XORs the key stream INTO the buffer.
    Returns the new buffer contents. *)
Definition fill_uint8 (r : rng) (buf : bytes) : bytes * rng :=
  (xor_bytes buf (ks_bytes r (List.length buf)), rng_skip r (List.length buf)).

(** rand/chacha20.go:23-27 Uint32 and 29-33 Uint64 *)
Definition rng_uint32 (r : rng) : Z * rng :=
  let '(b, r) := fill_uint8 r (repeat 0 4) in (be_val b, r).
(** rand/chacha20.go:29-33 Uint64 *)
Definition rng_uint64 (r : rng) : Z * rng :=
  let '(b, r) := fill_uint8 r (repeat 0 8) in (be_val b, r).

(** curve/scalar.go:101-109 Scalar.Random for K256.  The buffer is not
    cleared between iterations. *)
Fixpoint random_loop (fuel : nat) (r : rng) (buf : bytes) : res (Fq * rng) :=
  match fuel with
  | O => Diverge
  | S fuel =>
    let '(buf, r) := fill_uint8 r buf in
    match scalar_deserialize 1 buf with
    | Ok (Some s) => Ok (s, r)
    | Ok None => Panic
    | _ => random_loop fuel r buf
    end
  end.
(** curve/scalar.go:101-109 Random *)
Definition random_scalar (r : rng) : res (Fq * rng) := random_loop rand_fuel r (repeat 0 32).

(** ** seed/seed.go *)

(** seed/seed.go:15-23 NewSeed; a seed is its 32-byte value. *)
Definition new_seed (input dst : bytes) : res bytes :=
  match expand_message_xmd input dst 32 with
  | Ok d => Ok (copy_into 32 d)
  | _ => Panic
  end.
(** seed/seed.go:26, 38 *)
Definition from_bytes_dst : bytes := str "ic-crypto-seed-from-bytes".
(** seed/seed.go:38 *)
Definition from_rng_dst : bytes := str "ic-crypto-seed-from-rng".
(** seed/seed.go:25-27 FromBytes *)
Definition seed_from_bytes (v : bytes) : res bytes := new_seed v from_bytes_dst.
(** seed/seed.go:35-39 FromRng *)
Definition seed_from_rng (r : rng) : res (bytes * rng) :=
  let '(o, r) := fill_uint8 r (repeat 0 32) in
  do s <- new_seed o from_rng_dst; Ok (s, r).
(** seed/seed.go:41-43 Derive *)
Definition seed_derive (s dst : bytes) : res bytes := new_seed s dst.
(** seed/seed.go:45-47 Rng *)
Definition seed_rng (s : bytes) : res rng := new_chacha s.
(** curve/scalar.go:111-114 FromSeed *)
Definition scalar_from_seed (s : bytes) : res Fq :=
  do r <- seed_rng s; do x <- random_scalar r; Ok (fst x).

(** ** curve/hash_to_curve.go:124-142 HashToScalar for K256: 48 bytes each *)
(** curve/hash_to_curve.go:124-142, the 48 bytes of one scalar *)
Definition chunk48 (b : bytes) (i : nat) : bytes := firstn 48 (skipn (48 * i) b).
(** curve/hash_to_curve.go:124-142 HashToScalar *)
Definition hash_to_scalar (count : Z) (input dst : bytes) : res (list Fq) :=
  do u <- expand_message_xmd input dst (count * 48);
  mapM (fun i => scalar_from_bytes_wide (chunk48 u i)) (seq 0 (Z.to_nat count)).

(** ** ro/ro.go *)

(** ro/ro.go:20-24; the btree map is a list sorted by name (inputSize is
    written but never read). *)
Record ro := mkro { ro_dst : bytes; ro_inputs : list (bytes * bytes) }.

(** ro/ro.go:28-34 *)
Definition new_ro (dst : bytes) : ro := mkro dst [].

(** btree Get (external), called at ro/ro.go:37 *)
Fixpoint lookup (n : bytes) (l : list (bytes * bytes)) : option bytes :=
  match l with
  | [] => None
  | (k, v) :: l => if bytes_eqb k n then Some v else lookup n l
  end.
(** btree Set of a key not present (external), keeping Go string order; called at ro/ro.go:55 *)
Fixpoint insert (n d : bytes) (l : list (bytes * bytes)) : list (bytes * bytes) :=
  match l with
  | [] => [(n, d)]
  | (k, v) :: l' => if bytes_ltb n k then (n, d) :: l else (k, v) :: insert n d l'
  end.

(** ro/ro.go:13-18 type tags *)
Definition ty_bytes : Z := 1.
(** ro/ro.go:15 Integer *)
Definition ty_integer : Z := 2.
(** ro/ro.go:16 Point *)
Definition ty_point : Z := 3.
(** ro/ro.go:17 Scalar *)
Definition ty_scalar : Z := 4.

(** ro/ro.go:36-57 AddInput: the oracle after the call and whether the
    returned error is nil *)
Definition ro_add_input (r : ro) (name input : bytes) (ty : Z) : ro * bool :=
  match lookup name (ro_inputs r) with
  | Some _ => (r, false)
  | None =>
    if (blen name =? 0) || (255 <? blen name) then (r, false)
    else if 255 <? blen input then (r, false)
    else
      let encoded := ty :: be_bytes 4 (u32 (blen input)) ++ input in
      (mkro (ro_dst r) (insert name encoded (ro_inputs r)), true)
  end.
(** the same as a result; ro/ro.go:36-57 AddInput *)
Definition ro_add (r : ro) (name input : bytes) (ty : Z) : res ro :=
  match ro_add_input r name input ty with (r', true) => Ok r' | (_, false) => Err end.

(** every caller outside the tests ignores the error of Add* and goes on with
    the oracle as the call left it; ro/ro.go:36-57 AddInput *)
Definition ro_add_ign (r : ro) (name input : bytes) (ty : Z) : ro := fst (ro_add_input r name input ty).

(** ro/ro.go:79-81 AddBytesString, 73-77 AddScalar, 83-87 AddUint64,
    89-93 AddUint32 (also written as 8 bytes); errors ignored *)
Definition add_bytes (n : string) (v : bytes) (r : ro) : ro := ro_add_ign r (str n) v ty_bytes.
(** ro/ro.go:73-77 AddScalar *)
Definition add_scalar (n : string) (s : Fq) (r : ro) : ro :=
  ro_add_ign r (str n) (scalar_serialize_tagged s) ty_scalar.
(** ro/ro.go:83-87 AddUint64 *)
Definition add_uint64 (n : string) (i : Z) (r : ro) : ro := ro_add_ign r (str n) (be_bytes 8 (u64 i)) ty_integer.
(** ro/ro.go:89-93 AddUint32 *)
Definition add_uint32 (n : string) (i : Z) (r : ro) : ro := ro_add_ign r (str n) (be_bytes 8 (u32 i)) ty_integer.

(** ro/ro.go:110-122 formRoInput *)
Definition entry_bytes (e : bytes * bytes) : bytes := u8 (blen (fst e)) :: fst e ++ snd e.
(** ro/ro.go:110-122 formRoInput *)
Definition ro_form (r : ro) : res bytes :=
  match ro_inputs r with [] => Err | l => Ok (flat_map entry_bytes l) end.

(** ro/ro.go:103-109 OutputScalars; the domain separator is "%s-%s" of the
    oracle's and the curve name *)
Definition curve_dst (dst : bytes) : bytes := dst ++ str "-" ++ str "secp256k1".
(** ro/ro.go:103-109 OutputScalars *)
Definition ro_output_scalars (r : ro) (cnt : Z) : res (list Fq) :=
  do i <- ro_form r; hash_to_scalar cnt i (curve_dst (ro_dst r)).
(** ro/ro.go:95-101 OutputScalar *)
Definition ro_output_scalar (r : ro) : res Fq :=
  do l <- ro_output_scalars r 1; match l with s :: _ => Ok s | [] => Panic end.
(** ro/ro.go:124-129 OutputByteString *)
Definition ro_output_bytes (r : ro) (len : Z) : res bytes :=
  do i <- ro_form r; expand_message_xmd i (ro_dst r) len.
End Ro.
