(** Memory-level model of curve/k256_fe.go and curve/hash_to_curve.go for K256:
    field elements are pointers to mutable cells, and the arithmetic methods
    write their receiver.  CurveType on a pointer that is not a field element
    panics.  Points are values here: those made below are new and the only one
    written is the new point of HashToCurveRo itself. *)
From Coq Require Import ZArith Lia Bool String List.
From Verif Require Import Base Zmod Fields ModelScalar ModelXmd ModelRo ModelPoly ModelGroup ModelSecp ModelH2C ModelHeap ModelHeapSign.
Import ListNotations.
Open Scope Z_scope.

Section HeapH2C.
Context {X : Oracles} {GO : Grp}.

(** reading and writing the cell of a field element (curve/k256_fe.go:17-19) *)
Definition load_f (p : ptr) : M Fp := fun h => match get h p with Some (VF v) => (h, Ok v) | _ => (h, Panic) end.
(** writing the cell of a field element (curve/k256_fe.go:17-19) *)
Definition store_f (p : ptr) (v : Fp) : M ptr := fun h => match get h p with Some (VF _) => (upd h p (VF v), Ok p) | _ => (h, Panic) end.

(** ** curve/k256_fe.go *)
(** curve/k256_fe.go:28-87 Zero, One, FieldA, FieldB, FieldSswuA, FieldSswuB, FieldSswuZ,
    FieldSswuC2, newField, FromHex, FromBytesWide: each makes a new cell *)
Definition f_new (v : Fp) : M ptr := alloc (VF v).
(** curve/k256_fe.go:89-91 CurveType *)
Definition f_curve (a : ptr) : M unit := load_f a ;; hret tt.
(** curve/k256_fe.go:97-100 Assign *)
Definition f_assign (recv o : ptr) : M ptr := let! a := load_f o in store_f recv a.
(** curve/k256_fe.go:93-95 Clone *)
Definition f_clone (o : ptr) : M ptr := let! z := f_new fzero in f_assign z o.
(** curve/k256_fe.go:102-107 Add *)
Definition f_add (recv l r : ptr) : M ptr := let! a := load_f l in let! b := load_f r in store_f recv (fadd a b).
(** curve/k256_fe.go:109-114 Sub *)
Definition f_sub (recv l r : ptr) : M ptr := let! a := load_f l in let! b := load_f r in store_f recv (fsub a b).
(** curve/k256_fe.go:115-120 Mul *)
Definition f_mul (recv l r : ptr) : M ptr := let! a := load_f l in let! b := load_f r in store_f recv (fmul a b).
(** curve/k256_fe.go:122-125 Square *)
Definition f_square (recv o : ptr) : M ptr := let! a := load_f o in store_f recv (fmul a a).
(** curve/k256_fe.go:127-129 Equal *)
Definition f_equal (a b : ptr) : M bool := let! x := load_f a in let! y := load_f b in hret (feqb x y).
(** curve/k256_fe.go:131-133 CAssign, with the choice (0 or 1) as a boolean *)
Definition f_cassign (recv o : ptr) (choice : bool) : M ptr :=
  let! a := load_f recv in let! b := load_f o in store_f recv (if choice then b else a).
(** curve/k256_fe.go:135-138 Invert *)
Definition f_invert (recv o : ptr) : M ptr := let! a := load_f o in store_f recv (finv a).
(** curve/k256_fe.go:140-143 Negate *)
Definition f_negate (recv o : ptr) : M ptr := let! a := load_f o in store_f recv (fneg a).
(** curve/k256_fe.go:145-153 Sqrt *)
Definition f_sqrt (recv o : ptr) : M (ptr * bool) :=
  let! a := load_f o in let! r := store_f recv (fst (fe_sqrt a)) in hret (r, snd (fe_sqrt a)).
(** curve/k256_fe.go:155-160 Progenitor *)
Definition f_progenitor (recv o : ptr) : M ptr := let! a := load_f o in store_f recv (fe_progenitor a).
(** curve/k256_fe.go:162-164 IsZero *)
Definition f_is_zero (a : ptr) : M bool := let! x := load_f a in hret (feqb x fzero).
(** curve/k256_fe.go:176-179 Sign *)
Definition f_sign (a : ptr) : M Z := let! x := load_f a in hret (fe_sign x).

(** ** curve/hash_to_curve.go *)
(** curve/hash_to_curve.go:8-13 cmov *)
Definition h_cmov (a b : ptr) (choice : bool) : M ptr :=
  f_curve a ;;
  let! r := f_new fzero in
  f_assign r a ;;
  f_cassign r b choice ;;
  hret r.

(** curve/hash_to_curve.go:15-46 sqrtRatio, the K256 branch *)
Definition h_sqrt_ratio (u v : ptr) : M (ptr * bool) :=
  f_curve u ;; f_curve v ;;
  let! vz := f_is_zero v in
  if vz : bool then herr
  else
    let! c2 := f_new sswu_c2 in
    let! tv1 := f_new fzero in
    let! tv1 := f_square tv1 v in
    let! tv2 := f_new fzero in
    let! tv2 := f_mul tv2 u v in
    let! tv1 := f_mul tv1 tv1 tv2 in
    let! y1 := f_new fzero in
    let! y1 := f_progenitor y1 tv1 in
    let! y1 := f_mul y1 y1 tv2 in
    let! y2 := f_new fzero in
    let! y2 := f_mul y2 y1 c2 in
    let! tv3 := f_new fzero in
    let! tv3 := f_square tv3 y1 in
    let! tv3 := f_mul tv3 tv3 v in
    let! is_qr := f_equal tv3 u in
    let! y := h_cmov y2 y1 is_qr in
    hret (y, is_qr).

(** curve/hash_to_curve.go:48-88 sswu *)
Definition h_sswu (u : ptr) : M (ptr * ptr) :=
  f_curve u ;;
  let! a := f_new sswu_a in
  let! b := f_new sswu_b in
  let! z := f_new sswu_z in
  let! one := f_new fone in
  let! tv1 := f_new fzero in
  let! t := f_new fzero in
  let! t := f_square t u in
  let! tv1 := f_mul tv1 z t in
  let! tv2 := f_new fzero in
  let! tv2 := f_square tv2 tv1 in
  let! tv2 := f_add tv2 tv2 tv1 in
  let! tv3 := f_new fzero in
  let! tv3 := f_add tv3 tv2 one in
  let! tv3 := f_mul tv3 tv3 b in
  let! tz := f_is_zero tv2 in
  let! n := f_new fzero in
  let! n := f_negate n tv2 in
  let! tv4 := h_cmov z n (negb tz) in
  let! tv4 := f_mul tv4 tv4 a in
  let! tv2 := f_square tv2 tv3 in
  let! tv6 := f_new fzero in
  let! tv6 := f_square tv6 tv4 in
  let! tv5 := f_new fzero in
  let! tv5 := f_mul tv5 tv6 a in
  let! tv2 := f_add tv2 tv2 tv5 in
  let! tv2 := f_mul tv2 tv2 tv3 in
  let! tv6 := f_mul tv6 tv6 tv4 in
  let! tv5 := f_new fzero in
  let! tv5 := f_mul tv5 tv6 b in
  let! tv2 := f_add tv2 tv2 tv5 in
  let! x := f_new fzero in
  let! x := f_mul x tv1 tv3 in
  let! r := h_sqrt_ratio tv2 tv6 in
  let! y := f_new fzero in
  let! y := f_mul y tv1 u in
  let! y := f_mul y y (fst r) in
  let! x := h_cmov x tv3 (snd r) in
  let! y := h_cmov y (fst r) (snd r) in
  let! su := f_sign u in
  let! sy := f_sign y in
  let! n := f_new fzero in
  let! n := f_negate n y in
  let! y := h_cmov n y (Z.lxor (Z.lxor su sy) 1 =? 1) in
  let! i := f_invert tv4 tv4 in
  let! x := f_mul x x i in
  hret (x, y).

(** curve/hash_to_curve.go:162-168 x2Xc1C2 *)
Definition h_x2_xc1_c2 (x c1 c2 : ptr) : M ptr :=
  f_curve x ;;
  let! r := f_new fzero in
  let! r := f_add r x c1 in
  let! r := f_mul r x r in
  f_add r r c2.
(** curve/hash_to_curve.go:171-176 x3X2c1Xc2C3 *)
Definition h_x3_x2c1_xc2_c3 (x c1 c2 c3 : ptr) : M ptr :=
  let! r := h_x2_xc1_c2 x c1 c2 in
  let! r := f_mul r x r in
  f_add r r c3.
(** curve/hash_to_curve.go:179-187 x3c1X2c2Xc3C4 *)
Definition h_x3c1_x2c2_xc3_c4 (x c1 c2 c3 c4 : ptr) : M ptr :=
  f_curve x ;;
  let! r := f_new fzero in
  let! r := f_mul r x c1 in
  let! r := f_add r r c2 in
  let! r := f_mul r r x in
  let! r := f_add r r c3 in
  let! r := f_mul r r x in
  f_add r r c4.

(** 189-205 K256C: thirteen global cells, made once when the package is
    initialised; [kc i] is the pointer K256C[i] *)
Context (kc : nat -> ptr).

(** curve/hash_to_curve.go:216-229 sswuIsogenySecp256k1; line 227 writes the cell of the argument y *)
Definition h_sswu_isogeny (x y : ptr) : M (ptr * ptr) :=
  let! xnum := h_x3c1_x2c2_xc3_c4 x (kc 0) (kc 1) (kc 2) (kc 3) in
  let! xden := h_x2_xc1_c2 x (kc 4) (kc 5) in
  let! ynum := h_x3c1_x2c2_xc3_c4 x (kc 6) (kc 7) (kc 8) (kc 9) in
  let! yden := h_x3_x2c1_xc2_c3 x (kc 10) (kc 11) (kc 12) in
  let! inv := f_new fzero in
  let! inv := f_mul inv xden yden in
  let! inv := f_invert inv inv in
  let! x' := f_new fzero in
  let! t := f_new fzero in
  let! t := f_mul t inv yden in
  let! x' := f_mul x' xnum t in
  let! i := f_mul inv inv xden in
  let! n := f_mul ynum ynum i in
  let! y := f_mul y y n in
  hret (x', y).

(** 90-102 MapToCurve; curve/point.go:67-78 FromFieldElems reads both cells *)
Definition h_map_to_curve (fe : ptr) : M (option pt) :=
  let! r := h_sswu fe in
  f_curve fe ;;
  let! r := h_sswu_isogeny (fst r) (snd r) in
  let! x := load_f (fst r) in
  let! y := load_f (snd r) in
  hlift (from_field_elems x y).

(** curve/hash_to_curve.go:104-122 HashToField; each element is a new cell *)
Definition h_hash_to_field (count : nat) (input dst : bytes) : M (list ptr) :=
  let! vs := hlift (hash_to_field count input dst) in
  hmap f_new vs.

(** curve/hash_to_curve.go:144-159 HashToCurveRo *)
Definition h_hash_to_curve_ro (input dst : bytes) : M pt :=
  let! u := h_hash_to_field 2 input dst in
  match u with
  | u0 :: u1 :: _ =>
    let! q0 := h_map_to_curve u0 in
    let! q1 := h_map_to_curve u1 in
    match q0, q1 with
    | Some q0, Some q1 => hret (pt_add q0 q1)
    | _, _ => hpanic
    end
  | _ => hpanic
  end.
End HeapH2C.
