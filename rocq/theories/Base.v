(** Results of Go calls and byte strings. *)
From Coq Require Import ZArith Lia List Bool String Ascii.
Import ListNotations.
Open Scope Z_scope.

#[global] Arguments Z.mul : simpl never.
#[global] Arguments Z.add : simpl never.
#[global] Arguments Z.sub : simpl never.
#[global] Arguments Z.opp : simpl never.
#[global] Arguments Z.pow : simpl never.
#[global] Arguments Z.modulo : simpl never.
#[global] Arguments Z.div : simpl never.
#[global] Arguments Z.lxor : simpl never.
#[global] Arguments Z.eqb : simpl never.
#[global] Arguments Z.ltb : simpl never.
#[global] Arguments Z.leb : simpl never.
#[global] Arguments Z.of_nat : simpl never.
#[global] Arguments Z.to_nat : simpl never.

(** Outcome of a Go call returning (A, error):
    [Ok a]     value with nil error;
    [Err]      non-nil error (the message text is not modelled);
    [Panic]    run-time panic;
    [Diverge]  the model's fuel ran out (only for the rejection loop of
               curve/scalar.go:101-109 and the recursion of
               key/key_derivation.go:75-90, which have no static bound). *)
Inductive res (A : Type) : Type :=
| Ok (a : A) | Err | Panic | Diverge.
Arguments Ok {A}. Arguments Err {A}. Arguments Panic {A}. Arguments Diverge {A}.

Definition bind {A B} (r : res A) (k : A -> res B) : res B :=
  match r with Ok a => k a | Err => Err | Panic => Panic | Diverge => Diverge end.
Notation "'do' x <- r ; k" := (bind r (fun x => k))
  (at level 200, x pattern, r at level 100, k at level 200, right associativity).
Definition guard (b : bool) : res unit := if b then Ok tt else Err.

Fixpoint mapM {A B} (f : A -> res B) (l : list A) : res (list B) :=
  match l with
  | [] => Ok []
  | a :: l => do b <- f a; do bs <- mapM f l; Ok (b :: bs)
  end.

Definition is_ok {A} (r : res A) : bool := match r with Ok _ => true | _ => false end.

(** ** Byte strings *)
Definition bytes := list Z.
Definition byte_ok (b : Z) : Prop := 0 <= b < 256.
Definition bytes_ok (l : bytes) : Prop := Forall byte_ok l.

(** big-endian value *)
Definition be_val (l : bytes) : Z := fold_left (fun acc b => acc * 256 + b) l 0.
(** little-endian value *)
Fixpoint le_val (l : bytes) : Z :=
  match l with [] => 0 | b :: l => b + 256 * le_val l end.
(** [n] bytes of [z], least significant first / most significant first *)
Fixpoint le_bytes (n : nat) (z : Z) : bytes :=
  match n with O => [] | S n => z mod 256 :: le_bytes n (z / 256) end.
Definition be_bytes (n : nat) (z : Z) : bytes := rev (le_bytes n z).

Definition blen (l : bytes) : Z := Z.of_nat (List.length l).

(** common/utils.go:3-11 ReverseBytes: copies the slice reversed. *)
Definition reverse_bytes (l : bytes) : bytes := rev l.

(** Go [copy(buf[:n], src)] into a fresh zeroed array of [n] bytes. *)
Definition copy_into (n : nat) (src : bytes) : bytes :=
  firstn n src ++ repeat 0 (n - List.length src).

(** byte-wise exclusive or (on the shorter of the two) *)
Fixpoint xor_bytes (a b : bytes) : bytes :=
  match a, b with x :: a, y :: b => Z.lxor x y :: xor_bytes a b | _, _ => [] end.

(** Go string literals *)
Definition str (s : string) : bytes :=
  map (fun a => Z.of_N (N_of_ascii a)) (list_ascii_of_string s).

Fixpoint bytes_eqb (a b : bytes) : bool :=
  match a, b with
  | [], [] => true
  | x :: a, y :: b => (x =? y) && bytes_eqb a b
  | _, _ => false
  end.

(** Go string order: lexicographic on bytes *)
Fixpoint bytes_ltb (a b : bytes) : bool :=
  match a, b with
  | [], [] => false
  | [], _ :: _ => true
  | _ :: _, [] => false
  | x :: a, y :: b => (x <? y) || ((x =? y) && bytes_ltb a b)
  end.

(** Go integer conversions *)
Definition u64 (z : Z) : Z := z mod 2^64.
Definition u32 (z : Z) : Z := z mod 2^32.
Definition u8 (z : Z) : Z := z mod 2^8.
Definition int64_ok (z : Z) : Prop := - 2^63 <= z < 2^63.
(** wrap to Go int *)
Definition i64 (z : Z) : Z := (z + 2^63) mod 2^64 - 2^63.

#[global] Arguments be_bytes : simpl never.
