(** expand_message_xmd as written in RFC 9380 sections 5.3.1 and 5.3.3, for a
    hash with 32-byte output and 64-byte blocks.  Independent of the model. *)
From Coq Require Import ZArith List String.
From Verif Require Import Base.
Import ListNotations.
Open Scope Z_scope.

Section Rfc9380.
Variable H : bytes -> bytes.

Definition I2OSP (x : Z) (n : nat) : bytes := be_bytes n x.
Definition strxor (a b : bytes) : bytes := map (fun '(x, y) => Z.lxor x y) (combine a b).

Definition DST_prime (dst : bytes) : bytes := dst ++ I2OSP (blen dst) 1.
Definition msg_prime (msg dst : bytes) (len : Z) : bytes :=
  I2OSP 0 64 ++ msg ++ I2OSP len 2 ++ I2OSP 0 1 ++ DST_prime dst.

(** b_0 and b_(i+1) *)
Definition b_zero (msg dst : bytes) (len : Z) : bytes := H (msg_prime msg dst len).
Fixpoint b_succ (msg dst : bytes) (len : Z) (i : nat) : bytes :=
  match i with
  | O => H (b_zero msg dst len ++ I2OSP 1 1 ++ DST_prime dst)
  | S j => H (strxor (b_zero msg dst len) (b_succ msg dst len j)
              ++ I2OSP (Z.of_nat i + 1) 1 ++ DST_prime dst)
  end.

(** number of blocks: ceil (len / 32) *)
Definition ell_of (len : Z) : Z := (len + 31) / 32.

Definition effective_dst (dst : bytes) : bytes :=
  if blen dst <=? 255 then dst else H (str "H2C-OVERSIZE-DST-" ++ dst).

Definition rfc_expand (msg dst : bytes) (len : Z) : option bytes :=
  if 255 <? ell_of len then None
  else Some (firstn (Z.to_nat len)
              (List.concat (map (b_succ msg (effective_dst dst) len) (seq 0 (Z.to_nat (ell_of len)))))).
End Rfc9380.
