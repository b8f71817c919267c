(** Specification of CBOR items with definite lengths (RFC 8949 section 3) in
    preferred serialization (section 4.1), for arguments below 2^32. *)
From Coq Require Import ZArith List.
From Verif Require Import Base.
Import ListNotations.
Open Scope Z_scope.

(** the items that occur: major types 0, 2, 3, 4 and 5 *)
Inductive item := IUint (n : Z) | IBytes (b : bytes) | IText (b : bytes) | IArray (l : list item) | IMap (l : list (item * item)).

Definition is_byte (z : Z) : Prop := 0 <= z < 256.
(** the initial byte holds the major type in its upper three bits, in the lower
    five the argument or how many bytes of it follow; the shortest form *)
Inductive head (major : Z) : Z -> bytes -> Prop :=
| head_short n : 0 <= n < 24 -> head major n [32 * major + n]
| head_one n : 24 <= n < 256 -> head major n [32 * major + 24; n]
| head_two a b : is_byte a -> is_byte b -> 256 <= 256 * a + b -> head major (256 * a + b) [32 * major + 25; a; b]
| head_four a b c d : is_byte a -> is_byte b -> is_byte c -> is_byte d -> 65536 <= 256 * (256 * (256 * a + b) + c) + d ->
    head major (256 * (256 * (256 * a + b) + c) + d) [32 * major + 26; a; b; c; d].

Definition entries (l : list (item * item)) : list item := concat (map (fun e => [fst e; snd e]) l).
Inductive enc : item -> bytes -> Prop :=
| enc_uint n h : head 0 n h -> enc (IUint n) h
| enc_bytes b h : head 2 (blen b) h -> Forall is_byte b -> enc (IBytes b) (h ++ b)
| enc_text b h : head 3 (blen b) h -> Forall is_byte b -> enc (IText b) (h ++ b)
| enc_array l h b : head 4 (Z.of_nat (length l)) h -> encs l b -> enc (IArray l) (h ++ b)
| enc_map l h b : head 5 (Z.of_nat (length l)) h -> encs (entries l) b -> enc (IMap l) (h ++ b)
with encs : list item -> bytes -> Prop :=
| encs_nil : encs [] []
| encs_cons x l a b : enc x a -> encs l b -> encs (x :: l) (a ++ b).
Scheme enc_min := Minimality for enc Sort Prop
with encs_min := Minimality for encs Sort Prop.
Combined Scheme enc_encs_ind from enc_min, encs_min.
