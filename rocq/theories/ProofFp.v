(** Facts about the coordinate field: constants, squares, parity. *)
From Coq Require Import ZArith Znumtheory Lia Bool String List Ring Field.
From Verif Require Import Base BaseFacts Zmod Fields ModelScalar ModelSecp.
Import ListNotations.
Open Scope Z_scope.

Lemma p_morph : ring_morph (fzero : Fp) fone fadd fmul fsub fneg eq 0 1 Z.add Z.mul Z.sub Z.opp Z.eqb (of_Z p).
Proof.
  constructor; try reflexivity; intros.
  - apply of_Z_add.
  - apply of_Z_sub.
  - apply of_Z_mul.
  - apply of_Z_opp.
  - apply Z.eqb_eq in H. now subst.
Qed.
Ltac fp_const t :=
  match t with
  | of_Z p ?z => match isZcst z with true => z | _ => constr:(InitialRing.NotConstant) end
  | @fzero p => constr:(0)
  | @fone p => constr:(1)
  | _ => constr:(InitialRing.NotConstant)
  end.
Add Field FpF : Fp_field (morphism p_morph, constants [fp_const]).

Lemma p_pos : 0 < p. Proof. reflexivity. Qed.
Lemma Fp_range (a : Fp) : 0 <= fv a < p.
Proof. exact (fv_range p a p_pos). Qed.
Lemma p_mod4 : p = 4 * ((p + 1) / 4) - 1. Proof. vm_compute. reflexivity. Qed.
Lemma p34 : (p - 3) / 4 = (p + 1) / 4 - 1. Proof. vm_compute. reflexivity. Qed.
Lemma p4_pos : 1 < (p + 1) / 4. Proof. vm_compute. reflexivity. Qed.

Lemma fp_const_neq0 z : z mod p <> 0 -> of_Z p z <> fzero.
Proof. intros H E. apply H. apply (f_equal (@fv p)) in E. rewrite fv_of_Z in E. cbn in E. exact E. Qed.
Ltac fp_nz := apply fp_const_neq0; vm_compute; discriminate.

Lemma fmul_zero_l (a : Fp) : fmul fzero a = fzero. Proof. ring. Qed.
Lemma fsub_eq0 (a b : Fp) : fsub a b = fzero -> a = b.
Proof. intros H. replace a with (fadd b (fsub a b)) by ring. rewrite H. ring. Qed.
Lemma square_eq (a b : Fp) : fmul a a = fmul b b -> a = b \/ a = fneg b.
Proof.
  intros H. assert (E : fmul (fsub a b) (fadd a b) = fzero) by ring [H].
  apply (fmul_integral p_prime) in E. destruct E as [E|E].
  - left. exact (fsub_eq0 _ _ E).
  - right. replace a with (fsub (fadd a b) b) by ring. rewrite E. ring.
Qed.
Lemma fp_int (a b : Fp) : fmul a b = fzero -> a = fzero \/ b = fzero.
Proof. exact (fmul_integral p_prime a b). Qed.
Lemma fp_neq0 (a b : Fp) : a <> fzero -> b <> fzero -> fmul a b <> fzero.
Proof. exact (fmul_neq0 p_prime a b). Qed.

(** a square is recognised by Sqrt and its root found *)
Lemma fpow_zero n : 0 < n -> fpow (fzero : Fp) n = fzero.
Proof. intros H. replace n with (Z.succ (n - 1)) by lia. rewrite fpow_succ by lia. ring. Qed.
Lemma sqrt_of_square (s : Fp) : fmul (fpow (fmul s s) ((p + 1) / 4)) (fpow (fmul s s) ((p + 1) / 4)) = fmul s s.
Proof.
  pose proof p4_pos. destruct (fe_dec p s fzero) as [->|N].
  - replace (fmul (fzero : Fp) fzero) with (fzero : Fp) by ring. rewrite (fpow_zero ((p + 1) / 4)) by lia. ring.
  - assert (E : fpow (fmul s s) ((p + 1) / 4) = fpow s (2 * ((p + 1) / 4))) by (rewrite <- (fpow_2 s), <- fpow_mul by lia; reflexivity).
    rewrite E, <- fpow_add by lia.
    replace (2 * ((p + 1) / 4) + 2 * ((p + 1) / 4)) with ((p - 1) + 2) by (pose proof p_mod4; lia).
    rewrite fpow_add by (unfold p; lia). rewrite (fermat p_prime s N), fpow_2. ring.
Qed.
Definition is_square (a : Fp) : Prop := exists s, a = fmul s s.
Lemma fp_sqrt_square a : is_square a -> exists r, fp_sqrt a = (r, true) /\ fmul r r = a.
Proof.
  intros [s ->]. exists (fpow (fmul s s) ((p + 1) / 4)). unfold fp_sqrt.
  rewrite (proj2 (feqb_eq _ _ _) (sqrt_of_square s)). split; [reflexivity|apply sqrt_of_square].
Qed.
Lemma fp_sqrt_nonsquare a : ~ is_square a -> snd (fp_sqrt a) = false.
Proof.
  intros H. unfold fp_sqrt. cbn [snd]. destruct (feqb _ a) eqn:E; [|reflexivity]. exfalso. apply H.
  apply feqb_eq in E. eexists. symmetry. exact E.
Qed.
Lemma fp_sqrt_true a r : fp_sqrt a = (r, true) -> fmul r r = a.
Proof. unfold fp_sqrt. generalize (fpow a ((p + 1) / 4)). intros f H. injection H as -> H. now apply feqb_eq in H. Qed.
Lemma fp_sqrt_cases a : (exists r, fp_sqrt a = (r, true) /\ fmul r r = a) \/ (exists r, fp_sqrt a = (r, false)) /\ ~ is_square a.
Proof.
  pose proof (fp_sqrt_true a) as T. pose proof (fp_sqrt_square a) as Q. revert T Q. generalize (fp_sqrt a). intros [r [|]] T Q.
  - left. exists r. auto.
  - right. split; [exists r; reflexivity|]. intros H. apply Q in H. destruct H as (r' & H & _). discriminate H.
Qed.

(** Euler's criterion, p = 3 mod 4: of a and -a exactly one is a square *)
Lemma half_pow (a : Fp) : a <> fzero -> fpow a (2 * ((p + 1) / 4) - 1) = fone \/ fpow a (2 * ((p + 1) / 4) - 1) = fneg fone.
Proof.
  intros N. pose proof p4_pos. apply square_eq. rewrite <- fpow_add by lia.
  replace (2 * ((p + 1) / 4) - 1 + (2 * ((p + 1) / 4) - 1)) with (p - 1) by (pose proof p_mod4; lia).
  rewrite (fermat p_prime a N). ring.
Qed.
Lemma fpow_neg_odd (a : Fp) n : 0 <= n -> fpow (fneg a) (2 * n + 1) = fneg (fpow a (2 * n + 1)).
Proof.
  intros H. rewrite !fpow_add, !fpow_1, !fpow_mul by lia. rewrite !fpow_2. replace (fmul (fneg a) (fneg a)) with (fmul a a) by ring. ring.
Qed.
Lemma half_square (a : Fp) : a <> fzero -> fpow a (2 * ((p + 1) / 4) - 1) = fone -> is_square a.
Proof.
  intros N H. pose proof p4_pos. exists (fpow a ((p + 1) / 4)). rewrite <- fpow_add by lia.
  replace ((p + 1) / 4 + (p + 1) / 4) with (Z.succ (2 * ((p + 1) / 4) - 1)) by lia. rewrite fpow_succ by lia. rewrite H. ring.
Qed.
Lemma square_half (a : Fp) : a <> fzero -> is_square a -> fpow a (2 * ((p + 1) / 4) - 1) = fone.
Proof.
  intros N [s ->]. pose proof p4_pos. assert (Ns : s <> fzero) by (intros ->; apply N; ring).
  rewrite <- (fpow_2 s), <- fpow_mul by lia.
  replace (2 * (2 * ((p + 1) / 4) - 1)) with (p - 1) by (pose proof p_mod4; lia). exact (fermat p_prime s Ns).
Qed.
Lemma neg_one_neq : (fone : Fp) <> fneg fone.
Proof. intros H. apply (f_equal (@fv p)) in H. vm_compute in H. discriminate H. Qed.
Lemma square_or_neg (a : Fp) : is_square a \/ is_square (fneg a).
Proof.
  destruct (fe_dec p a fzero) as [->|N]; [left; exists fzero; ring|].
  destruct (half_pow a N) as [H|H]; [left; exact (half_square a N H)|right].
  apply half_square.
  - intros E. apply N. replace a with (fneg (fneg a)) by ring. rewrite E. ring.
  - pose proof p4_pos. replace (2 * ((p + 1) / 4) - 1) with (2 * ((p + 1) / 4 - 1) + 1) in * by lia.
    rewrite fpow_neg_odd by lia. rewrite H. ring.
Qed.
Lemma square_not_neg (a : Fp) : a <> fzero -> is_square a -> ~ is_square (fneg a).
Proof.
  intros N S1 S2. assert (N' : fneg a <> fzero) by (intros E; apply N; replace a with (fneg (fneg a)) by ring; rewrite E; ring).
  apply square_half in S1; [|exact N]. apply square_half in S2; [|exact N']. pose proof p4_pos.
  replace (2 * ((p + 1) / 4) - 1) with (2 * ((p + 1) / 4 - 1) + 1) in * by lia.
  rewrite fpow_neg_odd, S1 in S2 by lia. apply neg_one_neq. symmetry. exact S2.
Qed.
Lemma square_mul a b : is_square a -> is_square b -> is_square (fmul a b).
Proof. intros [s ->] [t ->]. exists (fmul s t). ring. Qed.
Lemma nonsquare_mul a b : ~ is_square a -> ~ is_square b -> is_square (fmul a b).
Proof.
  intros A B. destruct (square_or_neg a) as [S|[s S]]; [contradiction|]. destruct (square_or_neg b) as [T|[t T]]; [contradiction|].
  exists (fmul s t). replace (fmul a b) with (fmul (fneg a) (fneg b)) by ring. rewrite S, T. ring.
Qed.

(** parity *)
Lemma field_byte0 (a : Fp) : Z.land (nth 0 (field_bytes a) 0) 1 = fv a mod 2.
Proof.
  unfold field_bytes. cbn [le_bytes nth]. change 1 with (Z.ones 1). rewrite Z.land_ones by lia.
  change (2 ^ 1) with 2. rewrite <- Znumtheory.Zmod_div_mod; [reflexivity|lia|lia|]. exists 128. reflexivity.
Qed.
Lemma neg_parity (a : Fp) : a <> fzero -> fv (fneg a) mod 2 = 1 - fv a mod 2.
Proof.
  intros N. pose proof (Fp_range a). assert (fv a <> 0).
  { intros E. apply N. apply fe_eq. rewrite E. reflexivity. }
  unfold fneg. rewrite fv_of_Z. replace (- fv a mod p) with (p - fv a).
  2:{ replace (- fv a) with ((p - fv a) + (-1) * p) by lia. rewrite Z.mod_add by (unfold p; lia). rewrite Z.mod_small; lia. }
  assert (Hp : p = 2 * (p / 2) + 1) by (vm_compute; reflexivity).
  pose proof (Z.mod_pos_bound (fv a) 2 ltac:(lia)). pose proof (Z.div_mod (fv a) 2 ltac:(lia)) as D.
  symmetry. apply (Z.mod_unique _ 2 (p / 2 - fv a / 2)); [left; lia|]. lia.
Qed.
