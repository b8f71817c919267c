(** The group of points as the protocol code sees it: curve/point.go and
    curve/k256_point.go.  The layers above use points only through these
    operations.  [ModelSecp] instantiates the class with the curve itself. *)
From Coq Require Import ZArith Lia Bool String List.
From Verif Require Import Base Zmod Fields ModelScalar ModelXmd ModelRo.
Import ListNotations.
Open Scope Z_scope.

(** the point operations of curve/point.go and curve/k256_point.go, each cited below *)
Class Grp := {
  G : Type;
  gzero : G;                       (* curve/point.go:33-40 Identity *)
  gadd : G -> G -> G;              (* curve/k256_point.go:102-107 AddPoints *)
  gneg : G -> G;                   (* with gadd: 109-114 SubPoints *)
  smul : Fq -> G -> G;             (* 128-133 ScalarMul *)
  geqb : G -> G -> bool;           (* 170-172 Equal *)
  genG : G;                        (* curve/point.go:42-49 GeneratorG *)
  genH : G;                        (* curve/point.go:51-62 GeneratorH *)
  ser : G -> bytes;                (* curve/k256_point.go:166-168 Serialize *)
  deser : bytes -> res G;          (* curve/point.go:106-125 Deserialize for K256 *)
  affx : G -> Fp;                  (* curve/k256_point.go:190-192 AffineX *)
  h2p : bytes -> bytes -> res G    (* curve/point.go:64-66 HashToPoint: input, domain separator *)
}.

Section Group.
Context {GO : Grp}.

(** curve/k256_point.go:109-114 SubPoints *)
Definition gsub (a b : G) : G := gadd a (gneg b).
(** curve/k256_point.go:116-120 Double *)
Definition gdbl (a : G) : G := gadd a a.
(** curve/k256_point.go:147-151 LinComb and curve/point.go:80-87 MulPoints *)
Definition mul_points (p1 : G) (s1 : Fq) (p2 : G) (s2 : Fq) : G := gadd (smul s1 p1) (smul s2 p2).
(** curve/point.go:89-93 Pedersen *)
Definition pedersen (a b : Fq) : G := mul_points genG a genH b.
(** curve/point.go:95-98 MulByG *)
Definition mul_by_g (a : Fq) : G := smul a genG.
(** curve/k256_point.go:198-200 IsInfinity *)
Definition is_infinity (a : G) : bool := geqb a gzero.

(** curve/k256_point.go:138-143, one round per bit, most significant first *)
Fixpoint node_loop (s64 : Z) (n : nat) (p res : G) : G :=
  match n with
  | O => res
  | S n =>
    let res := gdbl res in
    let res := if Z.odd (Z.shiftr s64 (Z.of_nat n)) then gadd res p else res in
    node_loop s64 n p res
  end.
(** curve/k256_point.go:134-145 MulByNodeIndex; [scalar + 1] is computed in
    Go's int (64 bits) before the conversion, which is the same modulo 2^64;
    64 - LeadingZeros64 is the bit length. *)
Definition mul_by_node_index (p : G) (i : Z) : G :=
  let s64 := u64 (i64 (i + 1)) in
  node_loop s64 (Z.to_nat (if s64 =? 0 then 0 else Z.log2 s64 + 1)) p gzero.

(** curve/k256_point.go:179-184 SerializeTagged: 1 + 33 bytes *)
Definition ser_tagged (a : G) : bytes := 1 :: ser a.

(** ro/ro.go:59-62 AddPoint (errors ignored by every caller) *)
Definition add_point (n : string) (a : G) (r : ro) : ro := ro_add_ign r (str n) (ser_tagged a) ty_point.
(** ro/ro.go:131-137 OutputPoint *)
Definition ro_output_point (r : ro) : res G :=
  do i <- ro_form r; h2p i (curve_dst (ro_dst r)).
End Group.

(** What the layers above rely on.  Proved for the curve in [ProofSecp]; no Go counterpart: properties of the operations of curve/k256_point.go *)
Class GrpLaws (GO : Grp) : Prop := {
  gadd_assoc : forall a b c : G, gadd a (gadd b c) = gadd (gadd a b) c;
  gadd_comm : forall a b : G, gadd a b = gadd b a;
  gadd_0_l : forall a : G, gadd gzero a = a;
  gadd_neg : forall a : G, gadd a (gneg a) = gzero;
  smul_add : forall (x y : Fq) (a : G), smul (fadd x y) a = gadd (smul x a) (smul y a);
  smul_mul : forall (x y : Fq) (a : G), smul (fmul x y) a = smul x (smul y a);
  smul_gadd : forall (x : Fq) (a b : G), smul x (gadd a b) = gadd (smul x a) (smul x b);
  smul_1 : forall a : G, smul fone a = a;
  geqb_iff : forall a b : G, geqb a b = true <-> a = b;
  genG_nz : genG <> gzero;
  genH_nz : genH <> gzero;
  ser_len : forall a : G, blen (ser a) = 33;
  ser_ok : forall a : G, bytes_ok (ser a);
  ser_inj : forall a b : G, ser a = ser b -> a = b;
  deser_ser : forall a : G, deser (ser a) = Ok a;
  affx_inj : forall a b : G, affx a = affx b -> a <> gzero -> b <> gzero -> a = b \/ a = gneg b;
  affx_neg : forall a : G, affx (gneg a) = affx a;
  affx_zero : affx gzero = fzero;
  h2p_total : forall i d, exists a : G, h2p i d = Ok a
}.
