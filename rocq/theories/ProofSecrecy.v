(** Fewer shares than the threshold are independent of the secret. *)
From Coq Require Import ZArith Lia Bool List Ring Field.
From Verif Require Import Base BaseFacts Zmod Fields ModelScalar ProofScalar ModelPoly SpecPoly ProofPoly ProofLagrange.
Import ListNotations.
Open Scope Z_scope.

Lemma pev_0 l : pev l fzero = nth 0 l fzero.
Proof. destruct l as [|c l]; cbn [pev nth]; [reflexivity|]. ring. Qed.

Lemma interp_exists (ss : list (Fq * Fq)) : NoDup (map fst ss) ->
  exists c, length c = length ss /\ passes_through c ss.
Proof.
  intros Hd. set (xs := map fst ss) in *.
  set (f := fun v => fsum (map (fun i => fmul (snd (nth i ss (fzero, fzero))) (spec_lagrange v xs i)) (seq 0 (length xs)))).
  assert (isp (length xs) f) as (l & Hl & Hf).
  { apply (isp_sum _ (fun i v => fmul (snd (nth i ss (fzero, fzero))) (spec_lagrange v xs i))).
    intros i Hi. apply in_seq in Hi. apply isp_scale, isp_lagrange. lia. }
  assert (Hx : length xs = length ss) by apply map_length.
  exists (l ++ repeat fzero (length ss - length l)). split.
  - rewrite app_length, repeat_length. lia.
  - intros s Hs. rewrite pev_spec.
    assert (E : forall v, pev (l ++ repeat fzero (length ss - length l)) v = f v).
    { intros v. rewrite pev_app, pev_repeat0, Hf. ring. }
    rewrite E. apply (In_nth _ _ (fzero, fzero)) in Hs. destruct Hs as (k & Hk & <-).
    assert (Ek : nth k xs fzero = fst (nth k ss (fzero, fzero))).
    { unfold xs. rewrite <- (map_nth fst). reflexivity. }
    unfold f. rewrite <- Ek. rewrite (fsum_delta _ k) by
      (lia || (intros i Hi Hik; rewrite spec_lagrange_other by (assumption || lia); ring)).
    rewrite spec_lagrange_self by (assumption || lia). ring.
Qed.

(** [po] shares the secret [s] with threshold [t] and gives the shares [ss] *)
Definition sharing (t : nat) (s : Fq) (ss : list (Fq * Fq)) (po : list Fq) : Prop :=
  length po = t /\ spec_eval po fzero = s /\ passes_through po ss.

Lemma sharing_exists t s ss : NoDup (map fst ss) -> ~ In fzero (map fst ss) -> (length ss < t)%nat ->
  exists po, sharing t s ss po.
Proof.
  intros Hd Hz Hl.
  destruct (interp_exists ((fzero, s) :: ss)) as (c & Hc & Hp); [cbn [map fst]; constructor; assumption|].
  exists (c ++ repeat fzero (t - length c)). cbn [length] in Hc.
  assert (E : forall v, spec_eval (c ++ repeat fzero (t - length c)) v = spec_eval c v).
  { intros v. rewrite !pev_spec, pev_app, pev_repeat0. ring. }
  split; [rewrite app_length, repeat_length; lia|]. split.
  - rewrite E. apply (Hp (fzero, s)). left. reflexivity.
  - intros x Hx. rewrite E. apply Hp. right. exact Hx.
Qed.

Lemma same_eq (a b : list Fq) : length a = length b -> spec_same a b -> a = b.
Proof.
  intros Hl H. apply (nth_ext a b fzero fzero Hl). intros n _. apply H.
Qed.

Lemma sharing_unique t s ss a b : NoDup (map fst ss) -> ~ In fzero (map fst ss) -> length ss = (t - 1)%nat ->
  sharing t s ss a -> sharing t s ss b -> a = b.
Proof.
  intros Hd Hz Hl (La & Sa & Pa) (Lb & Sb & Pb).
  apply same_eq; [congruence|]. destruct t as [|t].
  - destruct a, b; cbn in *; try lia. intros i. reflexivity.
  - apply (agree_coeffs (fzero :: map fst ss)).
    + constructor; assumption.
    + cbn [length]. rewrite map_length. lia.
    + cbn [length]. rewrite map_length. lia.
    + intros x [<-|Hx].
      * rewrite <- !pev_spec. congruence.
      * apply in_map_iff in Hx. destruct Hx as (p & <- & Hp). rewrite <- !pev_spec, Pa, Pb by assumption. reflexivity.
Qed.

(** shifting by one fixed polynomial turns the sharings of [s] into those of [s'] *)
Lemma sharing_shift t s s' ss : NoDup (map fst ss) -> ~ In fzero (map fst ss) -> (length ss < t)%nat ->
  exists d, length d = t /\ forall po, length po = t ->
    (sharing t s ss po <-> sharing t s' ss (poly_add po d)).
Proof.
  intros Hd Hz Hl.
  destruct (sharing_exists t (fsub s' s) (map (fun p => (fst p, fzero)) ss)) as (d & Ld & Sd & Pd).
  - rewrite map_map. exact Hd.
  - rewrite map_map. exact Hz.
  - rewrite map_length. exact Hl.
  - exists d. split; [exact Ld|]. intros po Lp. unfold sharing.
    assert (Zd : forall p, In p ss -> spec_eval d (fst p) = fzero).
    { intros p Hp. apply (Pd (fst p, fzero)). apply in_map_iff. exists p. auto. }
    assert (E : forall x, spec_eval (poly_add po d) x = fadd (spec_eval po x) (spec_eval d x)).
    { intros x. rewrite !pev_spec, poly_add_pev. reflexivity. }
    assert (L2 : length (poly_add po d) = t) by (rewrite poly_add_length; lia).
    split; intros (_ & H1 & H2); (split; [assumption|]).
    + split; [rewrite E, Sd, H1; ring|]. intros p Hp. rewrite E, (H2 p Hp), (Zd p Hp). ring.
    + split.
      * rewrite E, Sd in H1. assert (Q : spec_eval po fzero = fsub (fadd (spec_eval po fzero) (fsub s' s)) (fsub s' s)) by ring. rewrite Q, H1. ring.
      * intros p Hp. specialize (H2 p Hp). rewrite E, (Zd p Hp) in H2. rewrite <- H2. ring.
Qed.
