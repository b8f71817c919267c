(** secp256k1 is a group: complete projective addition (Renes, Costello,
    Batina 2015) agrees with the chord-and-tangent law and is associative. *)
From Coq Require Import ZArith Znumtheory Lia Bool String List Ring Field.
From Verif Require Import Base BaseFacts Zmod Fields ModelScalar ModelSecp SpecSecp ProofFp ProofFastP.
Import ListNotations.
Open Scope Z_scope.

Definition eqn (x y : Fp) : Prop := fmul y y = fadd (fmul (fmul x x) x) (of_Z p 7).
Definition curve (a : pt) : Prop := match a with None => True | Some (x, y) => eqn x y end.
Lemma curve_iff a : on_curve a <-> curve a.
Proof.
  destruct a as [[x y]|]; [|reflexivity]. cbn [on_curve curve]. unfold eqn.
  assert (A : of_Z p (fv y ^ 2) = fmul y y) by (rewrite of_Z_pow, of_Z_fv, fpow_2 by lia; reflexivity).
  assert (B : of_Z p (fv x ^ 3 + 7) = fadd (fmul (fmul x x) x) (of_Z p 7)).
  { rewrite of_Z_add, of_Z_pow, of_Z_fv by lia. f_equal. change 3 with (2 + 1). rewrite fpow_add, fpow_2, fpow_1 by lia. reflexivity. }
  rewrite <- A, <- B. symmetry. apply of_Z_eq_iff.
Qed.

(** no point of order two: -7 is not a cube *)
Lemma rhs_neq0 (x : Fp) : fadd (fmul (fmul x x) x) (of_Z p 7) <> fzero.
Proof.
  intros H. apply neg7_pow.
  assert (E : of_Z p (-7) = fpow x 3).
  { change 3 with (2 + 1). rewrite fpow_add, fpow_2, fpow_1 by lia. apply fsub_eq0.
    replace (fsub (of_Z p (-7)) (fmul (fmul x x) x)) with (fneg (fadd (fmul (fmul x x) x) (of_Z p 7))) by ring. rewrite H. ring. }
  rewrite E, <- fpow_mul by (try (apply Z.div_pos); unfold p; lia).
  replace (3 * ((p - 1) / 3)) with (p - 1) by (vm_compute; reflexivity).
  apply (fermat p_prime). intros ->. revert H. replace (fadd _ _) with (of_Z p 7) by ring. fp_nz.
Qed.
Lemma eqn_y (x y : Fp) : eqn x y -> y <> fzero.
Proof. intros H ->. apply (rhs_neq0 x). unfold eqn in H. rewrite <- H. ring. Qed.
Lemma eqn_neg x y : eqn x y -> eqn x (fneg y).
Proof. unfold eqn. intros H. ring [H]. Qed.
Lemma curve_neg a : curve a -> curve (pt_neg a).
Proof. destruct a as [[x y]|]; [apply eqn_neg|exact (fun H => H)]. Qed.

(** chord and tangent stay on the curve *)
Definition chord_l (x1 y1 x2 y2 : Fp) := fdiv (fsub y2 y1) (fsub x2 x1).
Definition chord_x (x1 y1 x2 y2 : Fp) := let l := chord_l x1 y1 x2 y2 in fsub (fsub (fmul l l) x1) x2.
Definition chord_y (x1 y1 x2 y2 : Fp) :=
  let l := chord_l x1 y1 x2 y2 in fsub (fmul l (fsub x1 (chord_x x1 y1 x2 y2))) y1.
Definition tan_l (x y : Fp) := fdiv (fmul (of_Z p 3) (fmul x x)) (fmul (of_Z p 2) y).
Definition tan_x (x y : Fp) := let l := tan_l x y in fsub (fmul l l) (fmul (of_Z p 2) x).
Definition tan_y (x y : Fp) := let l := tan_l x y in fsub (fmul l (fsub x (tan_x x y))) y.

Lemma sub_neq0 (a b : Fp) : a <> b -> fsub a b <> fzero.
Proof. intros H E. exact (H (fsub_eq0 _ _ E)). Qed.
Lemma two_neq0 : of_Z p 2 <> fzero. Proof. fp_nz. Qed.

Lemma chord_curve x1 y1 x2 y2 : x1 <> x2 -> eqn x1 y1 -> eqn x2 y2 -> eqn (chord_x x1 y1 x2 y2) (chord_y x1 y1 x2 y2).
Proof.
  unfold eqn. intros N h1 h2. assert (D : fsub x2 x1 <> fzero) by (apply sub_neq0; congruence).
  unfold chord_y, chord_x, chord_l. cbv zeta. field [h1 h2]. exact D.
Qed.
Lemma tan_curve x y : eqn x y -> eqn (tan_x x y) (tan_y x y).
Proof.
  intros h. pose proof (eqn_y _ _ h) as N. unfold eqn in *. unfold tan_y, tan_x, tan_l. cbv zeta.
  field [h]. split; [exact N|exact two_neq0].
Qed.

(** complete addition on projective triples *)
Definition triple := (Fp * Fp * Fp)%type.
Definition cadd (s t : triple) : triple :=
  let '(X1, Y1, Z1) := s in let '(X2, Y2, Z2) := t in
  (fsub (fmul (fadd (fmul X1 Y2) (fmul X2 Y1)) (fsub (fmul Y1 Y2) (fmul (of_Z p 21) (fmul Z1 Z2))))
        (fmul (of_Z p 21) (fmul (fadd (fmul Y1 Z2) (fmul Y2 Z1)) (fadd (fmul X1 Z2) (fmul X2 Z1)))),
   fadd (fmul (fadd (fmul Y1 Y2) (fmul (of_Z p 21) (fmul Z1 Z2))) (fsub (fmul Y1 Y2) (fmul (of_Z p 21) (fmul Z1 Z2))))
        (fmul (of_Z p 63) (fmul (fmul X1 X2) (fadd (fmul X1 Z2) (fmul X2 Z1)))),
   fadd (fmul (fadd (fmul Y1 Z2) (fmul Y2 Z1)) (fadd (fmul Y1 Y2) (fmul (of_Z p 21) (fmul Z1 Z2))))
        (fmul (of_Z p 3) (fmul (fmul X1 X2) (fadd (fmul X1 Y2) (fmul X2 Y1))))).
Definition scale (k : Fp) (t : triple) : triple := let '(X, Y, Z) := t in (fmul k X, fmul k Y, fmul k Z).
Definition lift (a : pt) : triple := match a with None => (fzero, fone, fzero) | Some (x, y) => (x, y, fone) end.
Definition reps (t : triple) (a : pt) : Prop := exists k, k <> fzero /\ t = scale k (lift a).

Lemma triple_eq (a b c a' b' c' : Fp) : a = a' -> b = b' -> c = c' -> (a, b, c) = (a', b', c').
Proof. intros -> -> ->. reflexivity. Qed.
Lemma cadd_scale k l s t : cadd (scale k s) (scale l t) = scale (fmul (fmul k k) (fmul l l)) (cadd s t).
Proof. destruct s as [[X1 Y1] Z1], t as [[X2 Y2] Z2]. cbn [scale cadd]. apply triple_eq; ring. Qed.
Lemma cadd_comm s t : cadd s t = cadd t s.
Proof. destruct s as [[X1 Y1] Z1], t as [[X2 Y2] Z2]. cbn [cadd]. apply triple_eq; ring. Qed.
Lemma scale_scale k l t : scale k (scale l t) = scale (fmul k l) t.
Proof. destruct t as [[X Y] Z]. cbn [scale]. apply triple_eq; ring. Qed.

Lemma cadd_chord x1 y1 x2 y2 : x1 <> x2 -> eqn x1 y1 -> eqn x2 y2 ->
  reps (cadd (x1, y1, fone) (x2, y2, fone)) (Some (chord_x x1 y1 x2 y2, chord_y x1 y1 x2 y2)).
Proof.
  intros N h1 h2. assert (D : fsub x2 x1 <> fzero) by (apply sub_neq0; congruence).
  pose proof (eqn_y _ _ (chord_curve x1 y1 x2 (fneg y2) N h1 (eqn_neg _ _ h2))) as Ny.
  exists (fmul (fmul (fmul (fsub x2 x1) (fsub x2 x1)) (fsub x2 x1)) (chord_y x1 y1 x2 (fneg y2))). split.
  - apply fp_neq0; [|exact Ny]. apply fp_neq0; [apply fp_neq0|]; exact D.
  - unfold eqn in *. cbn [cadd lift scale]. unfold chord_y, chord_x, chord_l. cbv zeta. apply triple_eq; field [h1 h2]; exact D.
Qed.
Lemma eight_neq0 : of_Z p 8 <> fzero. Proof. fp_nz. Qed.
Lemma cadd_tan x y : eqn x y -> reps (cadd (x, y, fone) (x, y, fone)) (Some (tan_x x y, tan_y x y)).
Proof.
  intros h. pose proof (eqn_y _ _ h) as N. exists (fmul (of_Z p 8) (fmul (fmul y y) y)). split.
  - apply fp_neq0; [exact eight_neq0|]. apply fp_neq0; [apply fp_neq0|]; exact N.
  - unfold eqn in *. cbn [cadd lift scale]. unfold tan_y, tan_x, tan_l. cbv zeta. pose proof two_neq0 as T.
    apply triple_eq; [field [h]; auto|field [h]; auto|ring [h]].
Qed.
Lemma cadd_opp x y : eqn x y -> reps (cadd (x, y, fone) (x, fneg y, fone)) None.
Proof.
  intros h. pose proof (eqn_y _ _ h) as N. pose proof (eqn_y _ _ (tan_curve _ _ h)) as T.
  exists (fmul (fmul (of_Z p 8) (fmul (fmul y y) y)) (tan_y x y)). split.
  - apply fp_neq0; [|exact T]. apply fp_neq0; [exact eight_neq0|]. apply fp_neq0; [apply fp_neq0|]; exact N.
  - unfold eqn in *. cbn [cadd lift scale]. unfold tan_y, tan_x, tan_l. cbv zeta. pose proof two_neq0 as T2.
    apply triple_eq; [ring [h]|field [h]; auto|ring [h]].
Qed.
Lemma cadd_zero_l t a : reps t a -> curve a -> reps (cadd (lift None) t) a.
Proof.
  intros (k & K & ->) C. destruct a as [[x y]|].
  - exists (fmul (fmul k k) y). split.
    + apply fp_neq0; [apply fp_neq0; exact K|]. exact (eqn_y _ _ C).
    + cbn [lift scale cadd]. apply triple_eq; ring.
  - exists (fmul k k). split; [apply fp_neq0; exact K|]. cbn [lift scale cadd]. apply triple_eq; ring.
Qed.
Lemma reps_lift a : reps (lift a) a.
Proof. exists fone. split; [fp_nz|]. destruct (lift a) as [[X Y] Z]. cbn [scale]. apply triple_eq; ring. Qed.
Lemma reps_cadd s t a b c : reps s a -> reps t b -> reps (cadd (lift a) (lift b)) c -> reps (cadd s t) c.
Proof.
  intros (k & K & ->) (l & L & ->) (m & M & E). rewrite cadd_scale, E, scale_scale.
  eexists. split; [|reflexivity]. apply fp_neq0; [apply fp_neq0; apply fp_neq0; assumption|exact M].
Qed.
Lemma eqn_same_x x y1 y2 : eqn x y1 -> eqn x y2 -> y1 = y2 \/ y1 = fneg y2.
Proof. unfold eqn. intros h1 h2. apply square_eq. congruence. Qed.

Lemma pt_add_reps a b : curve a -> curve b -> reps (cadd (lift a) (lift b)) (pt_add a b).
Proof.
  intros Ha Hb. destruct a as [[x1 y1]|].
  2:{ apply cadd_zero_l; [apply reps_lift|exact Hb]. }
  destruct b as [[x2 y2]|].
  2:{ rewrite cadd_comm. apply cadd_zero_l; [apply reps_lift|exact Ha]. }
  cbn [pt_add lift curve] in *. destruct (feqb x1 x2) eqn:Ex.
  - apply feqb_eq in Ex. subst x2. destruct (feqb y1 y2) eqn:Ey; cbn [andb].
    + apply feqb_eq in Ey. subst y2. assert (feqb y1 fzero = false) as -> by (apply feqb_neq; exact (eqn_y _ _ Ha)).
      cbn [negb]. exact (cadd_tan _ _ Ha).
    + apply feqb_neq in Ey. destruct (eqn_same_x _ _ _ Hb Ha) as [E|E]; [congruence|]. subst y2. exact (cadd_opp _ _ Ha).
  - apply feqb_neq in Ex. exact (cadd_chord _ _ _ _ Ex Ha Hb).
Qed.
Lemma pt_add_curve a b : curve a -> curve b -> curve (pt_add a b).
Proof.
  intros Ha Hb. destruct a as [[x1 y1]|]; [|exact Hb]. destruct b as [[x2 y2]|]; [|exact Ha].
  cbn [pt_add]. destruct (feqb x1 x2) eqn:Ex.
  - destruct (feqb y1 y2 && negb (feqb y1 fzero)); [|exact I]. exact (tan_curve _ _ Ha).
  - apply feqb_neq in Ex. exact (chord_curve _ _ _ _ Ex Ha Hb).
Qed.

(** two triples with equal cross products denote the same point *)
Definition cross (s t : triple) : Prop :=
  let '(X1, Y1, Z1) := s in let '(X2, Y2, Z2) := t in
  fmul X1 Z2 = fmul X2 Z1 /\ fmul Y1 Z2 = fmul Y2 Z1 /\ fmul X1 Y2 = fmul X2 Y1.
Lemma one_neq0 : (fone : Fp) <> fzero. Proof. fp_nz. Qed.
Lemma reps_cross s t a b : reps s a -> reps t b -> cross s t -> a = b.
Proof.
  intros (k & K & ->) (l & L & ->) C. destruct a as [[x1 y1]|], b as [[x2 y2]|]; cbn [lift scale cross] in *; try destruct C as (C1 & C2 & C3).
  - assert (KL : fmul k l <> fzero) by (apply fp_neq0; assumption).
    assert (x1 = x2) as -> by (apply (fmul_cancel_l p_prime (fmul k l)); [exact KL|]; transitivity (fmul (fmul k x1) (fmul l fone)); [ring|rewrite C1; ring]).
    assert (y1 = y2) as -> by (apply (fmul_cancel_l p_prime (fmul k l)); [exact KL|]; transitivity (fmul (fmul k y1) (fmul l fone)); [ring|rewrite C2; ring]).
    reflexivity.
  - exfalso. apply (fp_neq0 k l K L). transitivity (fsub (fmul (fmul l fone) (fmul k fone)) (fmul (fmul k y1) (fmul l fzero))); [ring|]. rewrite C2. ring.
  - exfalso. apply (fp_neq0 k l K L). transitivity (fsub (fmul (fmul k fone) (fmul l fone)) (fmul (fmul l y2) (fmul k fzero))); [ring|]. rewrite C2. ring.
  - reflexivity.
Qed.
Lemma cadd_assoc x1 y1 x2 y2 x3 y3 : eqn x1 y1 -> eqn x2 y2 -> eqn x3 y3 ->
  cross (cadd (cadd (x1, y1, fone) (x2, y2, fone)) (x3, y3, fone)) (cadd (x1, y1, fone) (cadd (x2, y2, fone) (x3, y3, fone))).
Proof.
  unfold eqn. intros h1 h2 h3. cbn [cadd cross]. split; [|split]; ring [h1 h2 h3].
Qed.
Lemma pt_add_assoc a b c : curve a -> curve b -> curve c -> pt_add a (pt_add b c) = pt_add (pt_add a b) c.
Proof.
  intros Ha Hb Hc.
  destruct a as [[x1 y1]|]; [|reflexivity].
  destruct b as [[x2 y2]|]; [|reflexivity].
  destruct c as [[x3 y3]|].
  2:{ change (pt_add (Some (x2, y2)) None) with (Some (x2, y2)).
      destruct (pt_add (Some (x1, y1)) (Some (x2, y2))) as [[x y]|]; reflexivity. }
  symmetry. eapply reps_cross; [| |exact (cadd_assoc _ _ _ _ _ _ Ha Hb Hc)].
  - eapply reps_cadd; [exact (pt_add_reps _ _ Ha Hb)|exact (reps_lift (Some (x3, y3)))|]. apply pt_add_reps; [|exact Hc]. exact (pt_add_curve _ _ Ha Hb).
  - eapply reps_cadd; [exact (reps_lift (Some (x1, y1)))|exact (pt_add_reps _ _ Hb Hc)|]. apply pt_add_reps; [exact Ha|]. exact (pt_add_curve _ _ Hb Hc).
Qed.
Lemma pt_add_comm a b : curve a -> curve b -> pt_add a b = pt_add b a.
Proof.
  intros Ha Hb. pose proof (pt_add_reps _ _ Ha Hb) as R. pose proof (pt_add_reps _ _ Hb Ha) as S. rewrite cadd_comm in S.
  eapply reps_cross; [exact R|exact S|]. destruct (cadd (lift a) (lift b)) as [[X Y] Z]. cbn [cross]. auto.
Qed.
Lemma pt_add_neg a : curve a -> pt_add a (pt_neg a) = None.
Proof.
  intros Ha. destruct a as [[x y]|]; [|reflexivity]. cbn [pt_neg pt_add]. rewrite feqb_refl.
  destruct (feqb y (fneg y)) eqn:E; [|reflexivity]. apply feqb_eq in E. exfalso.
  apply (fp_neq0 (of_Z p 2) y two_neq0 (eqn_y _ _ Ha)). transitivity (fsub y (fneg y)); [ring|]. rewrite <- E. ring.
Qed.
