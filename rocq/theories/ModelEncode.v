(** The rest of curve/encode.go: text form, compression and accessors of
    encoded points.  An EncodePoint32 is its byte slice, as in [ModelSecp]. *)
From Coq Require Import ZArith Bool List.
From Verif Require Import Base Zmod Fields ModelScalar ModelXmd ModelSecp.
Import ListNotations.
Open Scope Z_scope.

(** encoding/hex EncodeToString and DecodeString (external): two lower-case
    digits per byte; decoding takes both cases and refuses odd lengths; behind curve/encode.go:187 *)
Definition hex_char (n : Z) : Z := if n <? 10 then 48 + n else 87 + n.
(** encoding/hex EncodeToString, called at curve/encode.go:187 *)
Definition hex_encode (b : bytes) : bytes := flat_map (fun x => [hex_char (x / 16); hex_char (x mod 16)]) b.
(** behind encoding/hex DecodeString, called at curve/encode.go:134 *)
Definition hex_val (c : Z) : option Z :=
  if (48 <=? c) && (c <=? 57) then Some (c - 48)
  else if (97 <=? c) && (c <=? 102) then Some (c - 87)
  else if (65 <=? c) && (c <=? 70) then Some (c - 55)
  else None.
(** encoding/hex DecodeString, called at curve/encode.go:134 *)
Fixpoint hex_decode (s : bytes) : res bytes :=
  match s with
  | [] => Ok []
  | [_] => Err
  | a :: b :: s =>
    match hex_val a, hex_val b with
    | Some x, Some y => do r <- hex_decode s; Ok (16 * x + y :: r)
    | _, _ => Err
    end
  end.

(** curve/encode.go:133-139 FromStr *)
Definition encode_from_str (s : bytes) : res bytes := do b <- hex_decode s; encode_from_bytes b.
(** curve/encode.go:141-144 FromUnTaggedBytes *)
Definition encode_from_untagged (b : bytes) : res bytes :=
  do x <- slice b 0 32; do y <- slice b 32 (blen b); Ok (from_affine_coordinates x y false).
(** curve/encode.go:166-176 ConditionalSelect *)
Definition encode_select (a b : bytes) (choice : Z) : bytes := if choice =? 0 then a else b.
(** curve/encode.go:186-188 ToString: the whole slice, not AsBytes *)
Definition encode_to_string (e : bytes) : bytes := hex_encode e.
(** curve/encode.go:18-27, 190-200, 259-261: Tag and its predicates; e.bytes[0] *)
Definition encode_tag (e : bytes) : res Z := match e with [] => Panic | t :: _ => Ok t end.
(** curve/encode.go:202-209 Compress *)
Definition encode_compress (e : bytes) : res bytes :=
  do t <- encode_tag e;
  if (t =? 5) || ((t =? 2) || (t =? 3)) || (t =? 0) then Ok e
  else do x <- slice e 1 33; do y <- slice e 33 (blen e); Ok (from_affine_coordinates x y true).
(** curve/encode.go:233-257 X and Y: [None] for nil.  The value
    IdentityCoordinates matches no case, which also leaves nil. *)
Definition encode_x (e : bytes) : res (option bytes) :=
  do _ <- encode_tag e; do c <- encode_coordinates e;
  Ok (match c with CoIdentity => None | CoCompressed x _ => Some x | CoCompact x => Some x | CoUncompressed x _ => Some x end).
(** curve/encode.go:248-257 Y *)
Definition encode_y (e : bytes) : res (option bytes) :=
  do _ <- encode_tag e; do c <- encode_coordinates e;
  Ok (match c with CoUncompressed _ y => Some y | _ => None end).
