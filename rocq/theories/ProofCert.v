(** Hashing to the curve by certificate: given the square roots and inverses
    as literals, multiplications and comparisons are enough to establish the
    result. *)
From Coq Require Import ZArith Lia Bool String List Ring Field.
From Verif Require Import Base Zmod Fields ModelXmd ModelSecp ModelH2C ModelHashes SpecXmd SpecH2C ProofFp ProofHashes PropHash.
Import ListNotations.
Open Scope Z_scope.

Local Notation "a +' b" := (fadd a b) (at level 50, left associativity).
Local Notation "a *' b" := (fmul a b) (at level 40, left associativity).
Local Notation c := (of_Z p).

Local Opaque finv fpow.
(** the values met on the way from u to the point (X, Y) *)
Record map_cert := mkmc {
  mc_tinv : Z; mc_x1 : Z; mc_square : bool; mc_root : Z; mc_x : Z; mc_y : Z; mc_X : Z; mc_Y : Z
}.
Definition map_check (u : Fp) (m : map_cert) : bool :=
  let t := sswu_Z *' sswu_Z *' (u *' u *' u *' u) +' sswu_Z *' (u *' u) in
  let ti := c (mc_tinv m) in let x1 := c (mc_x1 m) in let r := c (mc_root m) in
  let x := c (mc_x m) in let y := c (mc_y m) in
  feqb (t *' ti) fone && feqb (x1 *' iso_A) (fneg iso_B *' (fone +' ti)) &&
  (if mc_square m then feqb (r *' r) (iso_g x1) && feqb x x1
   else feqb (r *' r) (fneg (iso_g x1)) && negb (feqb (iso_g x1) fzero) && feqb x (sswu_Z *' (u *' u) *' x1)) &&
  feqb (y *' y) (iso_g x) && (sgn0 y =? sgn0 u) &&
  negb (feqb (iso_xden x) fzero) && negb (feqb (iso_yden x) fzero) &&
  feqb (c (mc_X m) *' iso_xden x) (iso_xnum x) && feqb (c (mc_Y m) *' iso_yden x) (y *' iso_ynum x).


Lemma fdiv_by (a b x : Fp) : b <> fzero -> x *' b = a -> x = fdiv a b.
Proof. intros N <-. field. exact N. Qed.
Lemma unit_nz (a b : Fp) : a *' b = fone -> a <> fzero.
Proof. intros H ->. replace (fzero *' b) with (fzero : Fp) in H by ring. apply (f_equal fv) in H. vm_compute in H. discriminate H. Qed.
Lemma x1_by (t ti x a b : Fp) : t <> fzero -> a <> fzero -> t *' ti = fone -> x *' a = fneg b *' (fone +' ti) ->
  x = fdiv (fneg b) a *' (fone +' finv t).
Proof.
  intros N A T X. assert (E : ti = finv t).
  { transitivity (finv t *' (t *' ti)); [field; exact N|]. transitivity (finv t *' fone); [|ring]. apply (f_equal (fun z => finv t *' z)). exact T. }
  apply fdiv_by in X; [|exact A]. rewrite X, E. unfold fdiv. ring.
Qed.
Lemma sub_nz (a b : Fp) : a <> b -> fsub b a <> fzero.
Proof. intros N E. apply N. transitivity (fsub b (fsub b a)); [ring|rewrite E; ring]. Qed.
Lemma iso_A_nz : iso_A <> fzero.
Proof. apply feqb_neq. vm_compute. reflexivity. Qed.
Lemma map_check_sound u m : map_check u m = true -> rfc_map u (c (mc_X m)) (c (mc_Y m)).
Proof.
  unfold map_check. cbv zeta. intros H.
  apply andb_prop in H. destruct H as [H EY]. apply andb_prop in H. destruct H as [H EX].
  apply andb_prop in H. destruct H as [H DY]. apply andb_prop in H. destruct H as [H DX].
  apply andb_prop in H. destruct H as [H SG]. apply andb_prop in H. destruct H as [H Y].
  apply andb_prop in H. destruct H as [H SQ]. apply andb_prop in H. destruct H as [T X1].
  apply (proj1 (feqb_eq _ _ _)) in EX. apply (proj1 (feqb_eq _ _ _)) in EY. apply (proj1 (feqb_eq _ _ _)) in Y.
  apply (proj1 (feqb_eq _ _ _)) in X1. apply (proj1 (feqb_eq _ _ _)) in T.
  apply negb_true_iff in DX. apply negb_true_iff in DY. apply (proj1 (feqb_neq _ _ _)) in DX. apply (proj1 (feqb_neq _ _ _)) in DY.
  assert (Ex1 : c (mc_x1 m) = sswu_x1 u).
  { unfold sswu_x1. cbv zeta. match goal with |- context [feqb ?t fzero] => set (tt := t) in * end.
    pose proof (unit_nz _ _ T) as N. rewrite (proj2 (feqb_neq _ _ _) N).
    exact (x1_by _ _ _ _ _ N iso_A_nz T X1). }
  exists (c (mc_x m)), (c (mc_y m)). split; [|split; [exact DX|split; [exact DY|split; apply fdiv_by; assumption]]].
  split; [|split; [exact Y|apply Z.eqb_eq; exact SG]].
  destruct (mc_square m).
  - apply andb_prop in SQ. destruct SQ as [R E]. apply (proj1 (feqb_eq _ _ _)) in R. apply (proj1 (feqb_eq _ _ _)) in E. left. rewrite <- Ex1. split; [exists (c (mc_root m)); exact R|exact E].
  - apply andb_prop in SQ. destruct SQ as [R E]. apply andb_prop in R. destruct R as [R N].
    apply (proj1 (feqb_eq _ _ _)) in R. apply (proj1 (feqb_eq _ _ _)) in E. apply negb_true_iff in N. apply (proj1 (feqb_neq _ _ _)) in N. right.
    unfold sswu_x2. rewrite <- Ex1. split; [|exact E]. intros [r H].
    apply (square_not_neg _ N); [exists r; symmetry; exact H|exists (c (mc_root m)); symmetry; exact R].
Qed.

(** the certificate for a sum of two points: the slope *)
Definition add_check (a b : map_cert) (l x y : Z) : bool :=
  let x1 := c (mc_X a) in let x2 := c (mc_X b) in let y1 := c (mc_Y a) in let y2 := c (mc_Y b) in
  negb (feqb x1 x2) && feqb (c l *' fsub x2 x1) (fsub y2 y1) &&
  feqb (c x) (fsub (fsub (c l *' c l) x1) x2) && feqb (c y) (fsub (c l *' fsub x1 (c x)) y1).
Lemma add_check_sound a b l x y : add_check a b l x y = true ->
  pt_add (Some (c (mc_X a), c (mc_Y a))) (Some (c (mc_X b), c (mc_Y b))) = Some (c x, c y).
Proof.
  unfold add_check. cbv zeta. intros H.
  apply andb_prop in H. destruct H as [H EY]. apply andb_prop in H. destruct H as [H EX]. apply andb_prop in H. destruct H as [N L].
  apply (proj1 (feqb_eq _ _ _)) in EX. apply (proj1 (feqb_eq _ _ _)) in EY. apply (proj1 (feqb_eq _ _ _)) in L. apply negb_true_iff in N.
  unfold pt_add. rewrite N. apply (proj1 (feqb_neq _ _ _)) in N. apply fdiv_by in L.
  - cbv zeta. rewrite <- L, <- EX, <- EY. reflexivity.
  - apply sub_nz. exact N.
Qed.
Definition h2c_check (msg dst : bytes) (a b : map_cert) (l x y : Z) : bool :=
  match rfc_expand real_sha256 msg dst 96 with
  | Some u => map_check (rfc_field u 0) a && map_check (rfc_field u 1) b && add_check a b l x y
  | None => false
  end.
Lemma h2c_check_sound fuel msg dst a b l x y : h2c_check msg dst a b l x y = true ->
  @hash_to_curve_ro (realX fuel) msg dst = Ok (Some (c x, c y)).
Proof.
  unfold h2c_check. intros H.
  destruct (C12_hash_to_curve (realX fuel) (realX_ok fuel) msg dst) as (u & x0 & y0 & x1 & y1 & r & U & R0 & R1 & E & Er & _).
  change (@sha256 (realX fuel)) with real_sha256 in U. rewrite U in H. apply andb_prop in H. destruct H as [H S]. apply andb_prop in H. destruct H as [A B].
  apply map_check_sound in A, B. apply add_check_sound in S.
  destruct (C12_map_unique _ _ _ _ _ R0 A) as [-> ->]. destruct (C12_map_unique _ _ _ _ _ R1 B) as [-> ->].
  rewrite E, Er, S. reflexivity.
Qed.
