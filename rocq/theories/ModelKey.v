(** Key derivation: key/key_derivation.go. *)
From Coq Require Import ZArith Lia Bool String List.
From Verif Require Import Base Zmod Fields ModelScalar ModelXmd ModelRo ModelGroup.
Import ListNotations.
Open Scope Z_scope.

(** key/key_derivation.go:25-31 add: sum and carry, zero on overflow *)
Definition add8 (a b : Z) : Z * bool := if 255 <? a + b then (0, true) else (a + b, false).
(** key/key_derivation.go:38-46: the loop over the reversed index *)
Fixpoint next_loop (l : bytes) (carry : Z) : bytes * Z :=
  match l with
  | [] => ([], carry)
  | w :: l =>
    let '(v, c) := add8 w carry in
    let '(r, carry) := next_loop l (if c then 1 else 0) in
    (v :: r, carry)
  end.
(** key/key_derivation.go:35-50 Next *)
Definition index_next (d : bytes) : bytes :=
  let '(n, carry) := next_loop (reverse_bytes d) 1 in
  reverse_bytes (if carry =? 0 then n else n ++ [carry]).

(** key/key_derivation.go:52-68: a derivation path is its list of indices;
    NewBip32 writes each uint32 as 4 bytes, big-endian *)
Definition path := list bytes.
(** key/key_derivation.go:56-64 NewBip32 *)
Definition new_bip32 (l : list Z) : path := map (fun n => be_bytes 4 n) l.

Section Key.
Context {X : Oracles} {GO : Grp}.

(** key/key_derivation.go:75-90 ckdpub with 112-128 ComputeHMAC.  The result of
    the recursive call at line 87 is discarded; only its panics and its
    termination are visible. *)
Fixpoint ckdpub (fuel : nat) (pk : G) (chain index : bytes) : res (G * bytes * Fq) :=
  match fuel with
  | O => Diverge
  | S fuel =>
    let out := hmac512 chain (ser pk ++ index) in
    do off <- scalar_from_bytes_wide (firstn 32 out);
    let nk := gadd pk (mul_by_g off) in
    let ret := (nk, skipn 32 out, off) in
    if negb (bytes_eqb (scalar_serialize off) (firstn 32 out)) || is_infinity nk
    then match ckdpub fuel pk chain (index_next index) with
         | Panic => Panic
         | Diverge => Diverge
         | _ => Ok ret
         end
    else Ok ret
  end.

(** key/key_derivation.go:102-108: the loop of DeriveTweak *)
Fixpoint tweak_loop (pa : path) (k : G) (chain : bytes) (off : Fq) : res (Fq * bytes) :=
  match pa with
  | [] => Ok (off, chain)
  | i :: pa =>
    do r <- ckdpub rand_fuel k chain i;
    let '(k, chain, o) := r in tweak_loop pa k chain (fadd off o)
  end.
(** key/key_derivation.go:92-110 DeriveTweak *)
Definition derive_tweak (pa : path) (pk : G) : res (Fq * bytes) := tweak_loop pa pk (repeat 0 32) fzero.

(** sign/sign.go:52-67 DerivePublicKey: serialised key and chain key *)
Definition derive_public_key (master : bytes) (pa : path) : res (bytes * bytes) :=
  do pk <- deser master;
  do t <- derive_tweak pa pk;
  Ok (ser (gadd (mul_by_g (fst t)) pk), snd t).
End Key.
