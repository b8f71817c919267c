(** curve/hash_to_curve.go for K256. *)
From Coq Require Import ZArith Lia Bool String List.
From Verif Require Import Base Zmod Fields ModelScalar ModelXmd ModelSecp.
Import ListNotations.
Open Scope Z_scope.

(** curve/hash_to_curve.go:8-13 cmov *)
Definition cmov (a b : Fp) (choice : bool) : Fp := if choice then b else a.

(** curve/k256_fe.go:76-87 FieldSswuA, FieldSswuB, FieldSswuZ, FieldSswuC2 *)
Definition sswu_a : Fp := fp_of_big 0x3F8731ABDD661ADCA08A5558F0F5D272E953D363CB6F0E5D405447C01A444533.
(** curve/k256_fe.go:79-81 FieldSswuB *)
Definition sswu_b : Fp := fp_of_big 0x6eb.
(** curve/k256_fe.go:82-84 FieldSswuZ *)
Definition sswu_z : Fp := fp_of_big 0xfffffffffffffffffffffffffffffffffffffffffffffffffffffffefffffc24.
(** curve/k256_fe.go:85-87 FieldSswuC2 *)
Definition sswu_c2 : Fp := fp_of_big 0x31fdf302724013e57ad13fb38f842afeec184f00a74789dd286729c8303c4a59.

(** curve/hash_to_curve.go:15-46 sqrtRatio, the K256 branch *)
Definition sqrt_ratio (u v : Fp) : res (Fp * bool) :=
  if feqb v fzero then Err
  else
    let tv1 := fmul v v in
    let tv2 := fmul u v in
    let tv1 := fmul tv1 tv2 in
    let y1 := fe_progenitor tv1 in
    let y1 := fmul y1 tv2 in
    let y2 := fmul y1 sswu_c2 in
    let tv3 := fmul y1 y1 in
    let tv3 := fmul tv3 v in
    let is_qr := feqb tv3 u in
    Ok (cmov y2 y1 is_qr, is_qr).

(** curve/hash_to_curve.go:48-88 sswu *)
Definition sswu (u : Fp) : res (Fp * Fp) :=
  let a := sswu_a in
  let b := sswu_b in
  let z := sswu_z in
  let tv1 := fmul z (fmul u u) in
  let tv2 := fmul tv1 tv1 in
  let tv2 := fadd tv2 tv1 in
  let tv3 := fadd tv2 fone in
  let tv3 := fmul tv3 b in
  let choice := negb (feqb tv2 fzero) in
  let tv4 := cmov z (fneg tv2) choice in
  let tv4 := fmul tv4 a in
  let tv2 := fmul tv3 tv3 in
  let tv6 := fmul tv4 tv4 in
  let tv5 := fmul tv6 a in
  let tv2 := fadd tv2 tv5 in
  let tv2 := fmul tv2 tv3 in
  let tv6 := fmul tv6 tv4 in
  let tv5 := fmul tv6 b in
  let tv2 := fadd tv2 tv5 in
  let x := fmul tv1 tv3 in
  do r <- sqrt_ratio tv2 tv6;
  let '(y1, is_gx1_square) := r in
  let y := fmul tv1 u in
  let y := fmul y y1 in
  let x := cmov x tv3 is_gx1_square in
  let y := cmov y y1 is_gx1_square in
  let e1 := Z.lxor (Z.lxor (fe_sign u) (fe_sign y)) 1 in
  let y := cmov (fneg y) y (e1 =? 1) in
  let x := fmul x (finv tv4) in
  Ok (x, y).

(** curve/hash_to_curve.go:162-168 x2Xc1C2 *)
Definition x2_xc1_c2 (x c1 c2 : Fp) : Fp := fadd (fmul x (fadd x c1)) c2.
(** curve/hash_to_curve.go:171-176 x3X2c1Xc2C3 *)
Definition x3_x2c1_xc2_c3 (x c1 c2 c3 : Fp) : Fp := fadd (fmul x (x2_xc1_c2 x c1 c2)) c3.
(** curve/hash_to_curve.go:179-187 x3c1X2c2Xc3C4 *)
Definition x3c1_x2c2_xc3_c4 (x c1 c2 c3 c4 : Fp) : Fp :=
  fadd (fmul (fadd (fmul (fadd (fmul x c1) c2) x) c3) x) c4.

(** curve/hash_to_curve.go:189-205 K256C *)
Definition k256c0 := fp_of_big 0x8E38E38E38E38E38E38E38E38E38E38E38E38E38E38E38E38E38E38DAAAAA88C.
(** curve/hash_to_curve.go:192 K256C[1] *)
Definition k256c1 := fp_of_big 0x534C328D23F234E6E2A413DECA25CAECE4506144037C40314ECBD0B53D9DD262.
(** curve/hash_to_curve.go:193 K256C[2] *)
Definition k256c2 := fp_of_big 0x07D3D4C80BC321D5B9F315CEA7FD44C5D595D2FC0BF63B92DFFF1044F17C6581.
(** curve/hash_to_curve.go:194 K256C[3] *)
Definition k256c3 := fp_of_big 0x8E38E38E38E38E38E38E38E38E38E38E38E38E38E38E38E38E38E38DAAAAA8C7.
(** curve/hash_to_curve.go:195 K256C[4] *)
Definition k256c4 := fp_of_big 0xEDADC6F64383DC1DF7C4B2D51B54225406D36B641F5E41BBC52A56612A8C6D14.
(** curve/hash_to_curve.go:196 K256C[5] *)
Definition k256c5 := fp_of_big 0xD35771193D94918A9CA34CCBB7B640DD86CD409542F8487D9FE6B745781EB49B.
(** curve/hash_to_curve.go:197 K256C[6] *)
Definition k256c6 := fp_of_big 0x2F684BDA12F684BDA12F684BDA12F684BDA12F684BDA12F684BDA12F38E38D84.
(** curve/hash_to_curve.go:198 K256C[7] *)
Definition k256c7 := fp_of_big 0x29A6194691F91A73715209EF6512E576722830A201BE2018A765E85A9ECEE931.
(** curve/hash_to_curve.go:199 K256C[8] *)
Definition k256c8 := fp_of_big 0xC75E0C32D5CB7C0FA9D0A54B12A0A6D5647AB046D686DA6FDFFC90FC201D71A3.
(** curve/hash_to_curve.go:200 K256C[9] *)
Definition k256c9 := fp_of_big 0x4BDA12F684BDA12F684BDA12F684BDA12F684BDA12F684BDA12F684B8E38E23C.
(** curve/hash_to_curve.go:201 K256C[10] *)
Definition k256c10 := fp_of_big 0x6484AA716545CA2CF3A70C3FA8FE337E0A3D21162F0D6299A7BF8192BFD2A76F.
(** curve/hash_to_curve.go:202 K256C[11] *)
Definition k256c11 := fp_of_big 0x7A06534BB8BDB49FD5E9E6632722C2989467C1BFC8E8D978DFB425D2685C2573.
(** curve/hash_to_curve.go:203 K256C[12] *)
Definition k256c12 := fp_of_big 0xFFFFFFFFFFFFFFFFFFFFFFFFFFFFFFFFFFFFFFFFFFFFFFFFFFFFFFFEFFFFF93B.

(** curve/hash_to_curve.go:216-229 sswuIsogenySecp256k1; the arguments are
    evaluated left to right, so inv.Mul(inv, xden) uses the inverse *)
Definition sswu_isogeny (x y : Fp) : Fp * Fp :=
  let xnum := x3c1_x2c2_xc3_c4 x k256c0 k256c1 k256c2 k256c3 in
  let xden := x2_xc1_c2 x k256c4 k256c5 in
  let ynum := x3c1_x2c2_xc3_c4 x k256c6 k256c7 k256c8 k256c9 in
  let yden := x3_x2c1_xc2_c3 x k256c10 k256c11 k256c12 in
  let inv := fmul xden yden in
  let inv := finv inv in
  let x := fmul xnum (fmul inv yden) in
  let y := fmul y (fmul ynum (fmul inv xden)) in
  (x, y).

(** curve/hash_to_curve.go:90-102 MapToCurve *)
Definition map_to_curve (fe : Fp) : res (option pt) :=
  do r <- sswu fe;
  let '(x, y) := r in
  let '(x, y) := sswu_isogeny x y in
  from_field_elems x y.

Section Hash.
Context {X : Oracles}.

(** curve/hash_to_curve.go:104-122 HashToField for K256: field length
    (256 + 128 + 7) / 8 = 48 (curve/types.go:32-50); curve/fe.go:115-122 *)
Definition hash_to_field (count : nat) (input dst : bytes) : res (list Fp) :=
  let field_len := (256 + 128 + 7) / 8 in
  let len_in_bytes := Z.of_nat count * field_len in
  do u <- expand_message_xmd input dst len_in_bytes;
  mapM (fun i => do b <- slice u (Z.of_nat i * field_len) ((Z.of_nat i + 1) * field_len); Ok (fe_from_bytes_wide b))
       (seq 0 count).

(** curve/hash_to_curve.go:144-159 HashToCurveRo; AddPoints on a nil point
    panics *)
Definition hash_to_curve_ro (input dst : bytes) : res pt :=
  do u <- hash_to_field 2 input dst;
  do q0 <- map_to_curve (nth 0 u fzero);
  do q1 <- map_to_curve (nth 1 u fzero);
  match q0, q1 with
  | Some q0, Some q1 => Ok (pt_add q0 q1)
  | _, _ => Panic
  end.
End Hash.
