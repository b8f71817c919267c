(** Lagrange coefficients: the code computes the textbook basis values, and
    these reconstruct every polynomial of small enough degree. *)
From Coq Require Import ZArith Lia Bool List Ring Field Permutation.
From Verif Require Import Base BaseFacts Zmod Fields ModelScalar ProofScalar ModelPoly SpecPoly ProofPoly ProofInterp.
Import ListNotations.
Open Scope Z_scope.

Lemma fprod_app (a b : list Fq) : fprod (a ++ b) = fmul (fprod a) (fprod b).
Proof. unfold fprod. induction a as [|x a IH]; cbn [app fold_right]; [ring|]. rewrite IH. ring. Qed.
Lemma fsum_app (a b : list Fq) : fsum (a ++ b) = fadd (fsum a) (fsum b).
Proof. unfold fsum. induction a as [|x a IH]; cbn [app fold_right]; [ring|]. rewrite IH. ring. Qed.
Lemma fprod_cons (x : Fq) a : fprod (x :: a) = fmul x (fprod a). Proof. reflexivity. Qed.
Lemma fsum_cons (x : Fq) a : fsum (x :: a) = fadd x (fsum a). Proof. reflexivity. Qed.

Lemma prefix_length v xs : forall t, length (prefix_prods v t xs) = length xs.
Proof. induction xs; intros t; cbn; auto. Qed.
Lemma suffix_length v xs : length (snd (suffix_prods v xs)) = length xs.
Proof. induction xs as [|x xs IH]; cbn; [auto|]. destruct (suffix_prods v xs). cbn in *. auto. Qed.
Lemma suffix_fst v xs : fst (suffix_prods v xs) = fprod (map (fun y => fsub y v) xs).
Proof.
  induction xs as [|x xs IH]; [reflexivity|]. cbn [suffix_prods map]. rewrite fprod_cons, <- IH.
  destruct (suffix_prods v xs). cbn [fst]. ring.
Qed.

Lemma prefix_nth v d : forall pre x post t,
  nth (length pre) (prefix_prods v t (pre ++ x :: post)) d = fmul t (fprod (map (fun y => fsub y v) pre)).
Proof.
  induction pre as [|a pre IH]; intros x post t; cbn [app prefix_prods length nth map].
  - cbn. ring.
  - rewrite IH, fprod_cons. ring.
Qed.
Lemma suffix_nth v d : forall pre x post,
  nth (length pre) (snd (suffix_prods v (pre ++ x :: post))) d = fprod (map (fun y => fsub y v) post).
Proof.
  induction pre as [|a pre IH]; intros x post; cbn [app suffix_prods length].
  - rewrite <- suffix_fst. destruct (suffix_prods v post). reflexivity.
  - specialize (IH x post). destruct (suffix_prods v (pre ++ x :: post)). cbn [snd nth] in *. exact IH.
Qed.

Lemma denom_fold (x : Fq) : forall l a, ~ In x l ->
  fold_left (fun d y => if feqb x y then d else fmul d (fsub y x)) l a
  = fmul a (fprod (map (fun y => fsub y x) l)).
Proof.
  induction l as [|y l IH]; intros a H; cbn [fold_left map].
  - cbn. ring.
  - destruct (feqb x y) eqn:E.
    + apply feqb_eq in E. subst. exfalso. apply H. left. reflexivity.
    + rewrite IH, fprod_cons by (cbn in H; tauto). ring.
Qed.
Lemma denominator_split x pre post : ~ In x pre -> ~ In x post ->
  denominator x (pre ++ x :: post) =
  fmul (fprod (map (fun y => fsub y x) pre)) (fprod (map (fun y => fsub y x) post)).
Proof.
  intros H1 H2. unfold denominator. rewrite fold_left_app, (denom_fold x pre) by assumption.
  cbn [fold_left]. rewrite feqb_refl, (denom_fold x post) by assumption. ring.
Qed.

Lemma fprod_neq0 (l : list Fq) : (forall a, In a l -> a <> fzero) -> fprod l <> fzero.
Proof.
  induction l as [|a l IH]; intros H; [apply fone_neq_fzero, q_prime|].
  rewrite fprod_cons. apply (fmul_neq0 q_prime); [apply H; left; reflexivity|].
  apply IH. intros b Hb. apply H. right. exact Hb.
Qed.
Lemma diff_prod_neq0 (x : Fq) l : ~ In x l -> fprod (map (fun y => fsub y x) l) <> fzero.
Proof.
  intros H. apply fprod_neq0. intros a Ha. apply in_map_iff in Ha. destruct Ha as [y [<- Hy]].
  intros E. apply fsub_zero in E. subst. contradiction.
Qed.

Lemma basis_prod (v x : Fq) l : ~ In x l ->
  fprod (map (fun y => fdiv (fsub v y) (fsub x y)) l)
  = fmul (fprod (map (fun y => fsub y v) l)) (finv (fprod (map (fun y => fsub y x) l))).
Proof.
  induction l as [|y l IH]; intros H; cbn [map].
  - unfold fprod. cbn [fold_right].
    pose proof (finv_l q_prime fone (fone_neq_fzero q_prime)) as E. rewrite <- E at 1. ring.
  - rewrite !fprod_cons, IH by (cbn in H; tauto).
    assert (fprod (map (fun y => fsub y x) l) <> fzero) by (apply diff_prod_neq0; cbn in H; tauto).
    field. repeat split; try assumption.
    + intros E. apply fsub_zero in E. subst. apply H. left. reflexivity.
    + intros E. apply fsub_zero in E. subst. apply H. left. reflexivity.
Qed.

Lemma map_nth_seq_gen {A B} (g : A -> B) (l : list A) d pre post :
  map (fun j => g (nth j (pre ++ l ++ post) d)) (seq (length pre) (length l)) = map g l.
Proof.
  revert pre. induction l as [|a l IH]; intros pre; [reflexivity|].
  cbn [length seq map]. f_equal.
  - f_equal. rewrite app_nth2, Nat.sub_diag by lia. reflexivity.
  - specialize (IH (pre ++ [a])). rewrite app_length in IH. cbn [length] in IH.
    rewrite Nat.add_1_r in IH. rewrite <- IH. apply map_ext. intros j.
    rewrite <- app_assoc. reflexivity.
Qed.

Lemma spec_lagrange_split v pre x post :
  spec_lagrange v (pre ++ x :: post) (length pre) =
  fmul (fprod (map (fun y => fdiv (fsub v y) (fsub x y)) pre))
       (fprod (map (fun y => fdiv (fsub v y) (fsub x y)) post)).
Proof.
  unfold spec_lagrange. rewrite app_length. cbn [length].
  rewrite seq_app. cbn [seq Nat.add]. rewrite map_app. cbn [map]. rewrite fprod_app, fprod_cons, Nat.eqb_refl.
  rewrite app_nth2, Nat.sub_diag by lia. cbn [nth].
  assert (E1 : map (fun j => if (length pre =? j)%nat then fone
        else fdiv (fsub v (nth j (pre ++ x :: post) fzero)) (fsub x (nth j (pre ++ x :: post) fzero)))
        (seq 0 (length pre)) = map (fun y => fdiv (fsub v y) (fsub x y)) pre).
  { etransitivity; [|exact (map_nth_seq_gen (fun y => fdiv (fsub v y) (fsub x y)) pre fzero [] (x :: post))].
    apply map_ext_in. intros j Hj. apply in_seq in Hj.
    destruct (Nat.eqb_spec (length pre) j); [cbn in Hj; lia|reflexivity]. }
  assert (E2 : map (fun j => if (length pre =? j)%nat then fone
        else fdiv (fsub v (nth j (pre ++ x :: post) fzero)) (fsub x (nth j (pre ++ x :: post) fzero)))
        (seq (S (length pre)) (length post)) = map (fun y => fdiv (fsub v y) (fsub x y)) post).
  { pose proof (map_nth_seq_gen (fun y => fdiv (fsub v y) (fsub x y)) post fzero (pre ++ [x]) []) as E.
    rewrite app_length in E. cbn [length] in E. rewrite Nat.add_1_r in E. rewrite <- E.
    apply map_ext_in. intros j Hj. apply in_seq in Hj.
    destruct (Nat.eqb_spec (length pre) j); [lia|].
    rewrite app_nil_r, <- app_assoc. reflexivity. }
  rewrite E1, E2. ring.
Qed.

Lemma nth_split_at {A} (l : list A) i d : (i < length l)%nat ->
  exists pre post, l = pre ++ nth i l d :: post /\ length pre = i.
Proof.
  intros H. destruct (nth_split l d H) as (a & b & E & Hl). exists a, b. auto.
Qed.

(** values of the basis at the abscissae *)
Lemma spec_lagrange_self xs i : NoDup xs -> (i < length xs)%nat ->
  spec_lagrange (nth i xs fzero) xs i = fone.
Proof.
  intros Hd Hi. destruct (nth_split_at xs i fzero Hi) as (pre & post & E & Hl).
  set (x := nth i xs fzero) in *. rewrite E in Hd |- *. rewrite <- Hl at 1.
  rewrite spec_lagrange_split. apply NoDup_remove_2 in Hd.
  assert (forall l, ~ In x l -> fprod (map (fun y => fdiv (fsub x y) (fsub x y)) l) = fone) as H.
  { intros l Hx. rewrite basis_prod by assumption. field. apply diff_prod_neq0, Hx. }
  rewrite !H; [ring| |]; intros Hx; apply Hd, in_or_app; auto.
Qed.

Lemma fprod_zero (l : list Fq) : In fzero l -> fprod l = fzero.
Proof. induction l as [|a l IH]; intros []; rewrite fprod_cons; [subst; ring|rewrite IH by assumption; ring]. Qed.

Lemma fdiv_0_l (x : Fq) : fdiv fzero x = fzero.
Proof. unfold fdiv. ring. Qed.
Lemma spec_lagrange_other xs i j : NoDup xs -> (i < length xs)%nat -> (j < length xs)%nat -> i <> j ->
  spec_lagrange (nth j xs fzero) xs i = fzero.
Proof.
  intros Hd Hi Hj Hij. unfold spec_lagrange. apply fprod_zero. apply in_map_iff.
  exists j. split; [|apply in_seq; lia].
  destruct (Nat.eqb_spec i j); [contradiction|].
  assert (fsub (nth j xs fzero) (nth j xs fzero) = fzero) as -> by ring. apply fdiv_0_l.
Qed.

(** ** functions given by few coefficients *)
Definition isp (n : nat) (f : Fq -> Fq) : Prop := exists l, (length l <= n)%nat /\ forall v, f v = pev l v.
Lemma isp_ext n f g : (forall v, f v = g v) -> isp n f -> isp n g.
Proof. intros H [l [H1 H2]]. exists l. split; [assumption|]. intros v. rewrite <- H. apply H2. Qed.
Lemma isp_mono n m f : (n <= m)%nat -> isp n f -> isp m f.
Proof. intros H [l [H1 H2]]. exists l. split; [lia|assumption]. Qed.
Lemma isp_const n c : (1 <= n)%nat -> isp n (fun _ => c).
Proof. exists [c]. split; [cbn; lia|]. intros v. cbn. ring. Qed.
Lemma isp_zero n : isp n (fun _ => fzero).
Proof. exists []. split; [cbn; lia|]. reflexivity. Qed.
Lemma isp_add n f g : isp n f -> isp n g -> isp n (fun v => fadd (f v) (g v)).
Proof.
  intros [l [H1 H2]] [l' [H3 H4]]. exists (padd l l'). split; [rewrite padd_length; lia|].
  intros v. rewrite padd_pev, H2, H4. reflexivity.
Qed.
Lemma isp_scale n c f : isp n f -> isp n (fun v => fmul c (f v)).
Proof.
  intros [l [H1 H2]]. exists (pscale c l). split; [unfold pscale; rewrite map_length; lia|].
  intros v. rewrite pscale_pev, H2. reflexivity.
Qed.
Lemma isp_mul n m f g : isp n f -> isp m g -> isp (n + m - 1) (fun v => fmul (f v) (g v)).
Proof.
  intros [l [H1 H2]] [l' [H3 H4]]. exists (poly_mul l l'). split; [rewrite poly_mul_length; lia|].
  intros v. rewrite poly_mul_pev, H2, H4. reflexivity.
Qed.
Lemma isp_pev l n : (length l <= n)%nat -> isp n (pev l).
Proof. intros H. exists l. auto. Qed.
Lemma isp_sum {A} n (f : A -> Fq -> Fq) l : (forall a, In a l -> isp n (f a)) ->
  isp n (fun v => fsum (map (fun a => f a v) l)).
Proof.
  induction l as [|a l IH]; intros H; cbn [map].
  - apply isp_zero.
  - apply (isp_add n (f a) (fun v => fsum (map (fun a => f a v) l))).
    + apply H. left. reflexivity.
    + apply IH. intros b Hb. apply H. right. exact Hb.
Qed.
Lemma isp_vanish n f xs : isp n f -> NoDup xs -> (n <= length xs)%nat ->
  (forall x, In x xs -> f x = fzero) -> forall v, f v = fzero.
Proof.
  intros [l [H1 H2]] Hd Hn H v. rewrite H2. apply (roots_zero xs); [assumption|lia|].
  intros x Hx. rewrite <- H2. apply H, Hx.
Qed.

Lemma isp_basis (x : Fq) l : isp (S (length l)) (fun v => fprod (map (fun y => fdiv (fsub v y) (fsub x y)) l)).
Proof.
  induction l as [|y l IH]; cbn [map length].
  - apply isp_const. lia.
  - eapply isp_mono; [|apply (isp_mul 2 (S (length l)) (fun v => fdiv (fsub v y) (fsub x y)) _)]; [lia| |exact IH].
    exists [fmul (fneg y) (finv (fsub x y)); finv (fsub x y)]. split; [cbn; lia|].
    intros v. unfold fdiv. cbn. ring.
Qed.
Lemma isp_lagrange xs i : (i < length xs)%nat -> isp (length xs) (fun v => spec_lagrange v xs i).
Proof.
  intros Hi. destruct (nth_split_at xs i fzero Hi) as (pre & post & E & Hl).
  set (x := nth i xs fzero) in *. rewrite E, <- Hl.
  apply (isp_ext _ (fun v => fmul (fprod (map (fun y => fdiv (fsub v y) (fsub x y)) pre))
       (fprod (map (fun y => fdiv (fsub v y) (fsub x y)) post)))).
  { intros v. symmetry. apply spec_lagrange_split. }
  eapply isp_mono; [|apply isp_mul; apply isp_basis].
  rewrite app_length. cbn. lia.
Qed.

Lemma fsum_delta (g : nat -> Fq) k n : (k < n)%nat ->
  (forall i, (i < n)%nat -> i <> k -> g i = fzero) -> fsum (map g (seq 0 n)) = g k.
Proof.
  intros Hk H.
  replace n with (k + S (n - k - 1))%nat by lia.
  rewrite seq_app. cbn [seq Nat.add]. rewrite map_app. cbn [map]. rewrite fsum_app, fsum_cons.
  assert (forall l, (forall i, In i l -> g i = fzero) -> fsum (map g l) = fzero) as Hz.
  { induction l as [|a l IH]; intros Hl; [reflexivity|]. cbn [map].
    rewrite fsum_cons, (Hl a), IH; [ring| |left; reflexivity]. intros i Hi. apply Hl. right. exact Hi. }
  rewrite (Hz (seq 0 k)), (Hz (seq (S k) _)); [ring| |].
  - intros i Hi. apply in_seq in Hi. apply H; lia.
  - intros i Hi. apply in_seq in Hi. apply H; lia.
Qed.

(** the reconstruction identity *)
Lemma lagrange_sum xs f : NoDup xs -> isp (length xs) f -> forall v,
  fsum (map (fun i => fmul (f (nth i xs fzero)) (spec_lagrange v xs i)) (seq 0 (length xs))) = f v.
Proof.
  intros Hd Hf v. apply fsub_zero.
  set (g := fun v => fsub (fsum (map (fun i => fmul (f (nth i xs fzero)) (spec_lagrange v xs i)) (seq 0 (length xs)))) (f v)).
  change (g v = fzero). revert v. apply (isp_vanish (length xs) g xs); [|assumption|lia|].
  - apply (isp_ext _ (fun v => fadd (fsum (map (fun i => fmul (f (nth i xs fzero)) (spec_lagrange v xs i)) (seq 0 (length xs))))
       (fmul (fneg fone) (f v)))); [intros v; unfold g; ring|].
    apply isp_add; [|apply isp_scale; exact Hf].
    apply (isp_sum _ (fun i v => fmul (f (nth i xs fzero)) (spec_lagrange v xs i))).
    intros i Hi. apply in_seq in Hi. apply isp_scale, isp_lagrange. lia.
  - intros x Hx. apply (In_nth _ _ fzero) in Hx. destruct Hx as (k & Hk & <-). unfold g.
    rewrite (fsum_delta _ k) by
      (assumption || (intros i Hi Hik; rewrite spec_lagrange_other by (assumption || lia); ring)).
    rewrite spec_lagrange_self by assumption. ring.
Qed.

(** ** the code's coefficients *)
Lemma check_dups_iff l : check_dups l = true <-> NoDup l.
Proof.
  induction l as [|a l IH]; cbn [check_dups].
  - split; [constructor|reflexivity].
  - rewrite andb_true_iff, negb_true_iff, IH. split.
    + intros [H1 H2]. constructor; [|assumption]. intros Hin.
      assert (existsb (Z.eqb a) l = true) as E by (apply existsb_exists; exists a; split; [assumption|apply Z.eqb_refl]).
      congruence.
    + intros H. inversion H as [|? ? H1 H2]; subst. split; [|assumption].
      destruct (existsb (Z.eqb a) l) eqn:E; [|reflexivity].
      apply existsb_exists in E. destruct E as [b [Hb E]]. apply Z.eqb_eq in E. subst. contradiction.
Qed.

Lemma nodes_nodup l : Forall int64_ok l -> NoDup l -> NoDup (map from_node_index l).
Proof.
  intros Hf Hd. apply NoDup_map_inj; [|assumption].
  intros a b Ha Hb E. rewrite Forall_forall in Hf. apply from_node_index_inj; auto.
Qed.

Lemma combine_nth_eq {A B} (l : list A) (l' : list B) i a b : length l = length l' ->
  nth i (combine l l') (a, b) = (nth i l a, nth i l' b).
Proof. apply combine_nth. Qed.

Lemma mapM_map0 {A B} (f : A -> res B) (g : A -> B) l :
  (forall a, In a l -> f a = Ok (g a)) -> mapM f l = Ok (map g l).
Proof.
  induction l as [|a l IH]; intros H; [reflexivity|]. cbn [mapM map].
  rewrite (H a), IH; [reflexivity| |left; reflexivity]. intros b Hb. apply H. right. exact Hb.
Qed.

Lemma list_map_seq {A} (l : list A) d : l = map (fun i => nth i l d) (seq 0 (length l)).
Proof. symmetry. apply map_nth_seq. Qed.

Lemma nth_map_pair (l l' : list Fq) i : length l = length l' ->
  nth i (map (fun '(a, b) => fmul a b) (combine l l')) fzero = fmul (nth i l fzero) (nth i l' fzero).
Proof.
  revert l' i. induction l as [|a l IH]; intros [|b l'] [|i] H; cbn [length] in H; try lia; cbn [combine map nth].
  - ring. - ring. - reflexivity. - apply IH. lia.
Qed.

Lemma lagrange_value_spec v samples : Forall int64_ok samples -> NoDup samples -> samples <> [] ->
  lagrange_at_value v samples =
  Ok (map (spec_lagrange v (map from_node_index samples)) (seq 0 (length samples))).
Proof.
  intros Hf Hd Hne.
  destruct samples as [|s0 [|s1 rest]]; [congruence| |].
  - cbn [lagrange_at_value map length seq]. unfold spec_lagrange, fprod.
    cbn [map length seq fold_right Nat.eqb]. do 2 f_equal.
  - assert (Hc : check_dups (s0 :: s1 :: rest) = true) by (apply check_dups_iff; assumption).
    unfold lagrange_at_value. rewrite Hc. cbn [negb].
    pose proof (nodes_nodup _ Hf Hd) as Hx.
    rewrite <- (map_length from_node_index (s0 :: s1 :: rest)).
    set (xs := map from_node_index (s0 :: s1 :: rest)) in *. clearbody xs.
    set (num := map (fun '(a, b) => fmul a b) (combine (prefix_prods v fone xs) (snd (suffix_prods v xs)))).
    assert (Hlen : length num = length xs).
    { unfold num. rewrite map_length, combine_length, prefix_length, suffix_length. lia. }
    rewrite (list_map_seq (combine num xs) (fzero, fzero)).
    rewrite combine_length, Hlen, Nat.min_id.
    assert (Hnum : forall i, (i < length xs)%nat -> nth i (combine num xs) (fzero, fzero) = (nth i num fzero, nth i xs fzero)).
    { intros i Hi. apply combine_nth. exact Hlen. }
    assert (Hok : forall i, In i (seq 0 (length xs)) ->
       (let '(n, xi) := nth i (combine num xs) (fzero, fzero) in
        if feqb (finv (denominator xi xs)) fzero then Err else Ok (fmul n (finv (denominator xi xs))))
       = Ok (spec_lagrange v xs i)).
    { intros i Hi. apply in_seq in Hi. rewrite Hnum by lia.
      destruct (nth_split_at xs i fzero) as (pre & post & E & Hl); [lia|].
      set (x := nth i xs fzero) in *.
      rewrite E in Hx. apply NoDup_remove_2 in Hx.
      assert (~ In x pre /\ ~ In x post) as [Hp1 Hp2] by (split; intros H; apply Hx, in_or_app; auto).
      assert (En : nth i num fzero = fmul (fprod (map (fun y => fsub y v) pre)) (fprod (map (fun y => fsub y v) post))).
      { unfold num.
        rewrite (nth_map_pair _ _ i) by (rewrite prefix_length, suffix_length; (reflexivity || lia)).
        rewrite E, <- Hl, prefix_nth, suffix_nth. ring. }
      assert (Ed : denominator x xs = fmul (fprod (map (fun y => fsub y x) pre)) (fprod (map (fun y => fsub y x) post)))
        by (rewrite E at 1; apply denominator_split; assumption).
      rewrite En, Ed.
      pose proof (diff_prod_neq0 x pre Hp1) as D1. pose proof (diff_prod_neq0 x post Hp2) as D2.
      destruct (feqb (finv _) fzero) eqn:Ef.
      { exfalso. apply feqb_eq in Ef. apply (proj1 (finv_zero_iff _)) in Ef.
        revert Ef. apply (fmul_neq0 q_prime); assumption. }
      f_equal. rewrite E, <- Hl at 1. rewrite spec_lagrange_split, !basis_prod by assumption.
      field. split; assumption. }
    clear Hnum Hlen. revert Hok. generalize (seq 0 (length xs)). intros l.
    induction l as [|i l IH]; intros Hok; [reflexivity|].
    cbn [map mapM]. rewrite (Hok i) by (left; reflexivity). cbn [bind].
    rewrite IH by (intros j Hj; apply Hok; right; exact Hj). reflexivity.
Qed.

Lemma lagrange_dup_err v samples : (2 <= length samples)%nat -> ~ NoDup samples ->
  lagrange_at_value v samples = Err.
Proof.
  intros Hl Hn. destruct samples as [|s0 [|s1 rest]]; cbn [length] in Hl; try lia.
  unfold lagrange_at_value.
  destruct (check_dups (s0 :: s1 :: rest)) eqn:E; [|reflexivity].
  apply check_dups_iff in E. contradiction.
Qed.

Lemma interpolate_scalar_sum cs ys : length ys = length cs -> cs <> [] ->
  interpolate_scalar cs ys = Ok (fsum (map (fun i => fmul (nth i ys fzero) (nth i cs fzero)) (seq 0 (length cs)))).
Proof.
  intros Hl Hne. unfold interpolate_scalar. rewrite Hl, Nat.eqb_refl. cbn [negb].
  destruct cs as [|c0 cs0]; [congruence|]. f_equal.
  assert (G : forall (cs ys : list Fq) (a : Fq), length ys = length cs ->
     fold_left (fun r cy => fadd r (fmul (snd cy) (fst cy))) (combine cs ys) a =
     fadd a (fsum (map (fun i => fmul (nth i ys fzero) (nth i cs fzero)) (seq 0 (length cs))))).
  { clear. induction cs as [|c cs IH]; intros [|y ys] a H; cbn [length] in H; try lia.
    - cbn. ring.
    - cbn [combine fold_left length seq map fst snd]. rewrite IH by lia.
      rewrite fsum_cons, <- seq_shift, map_map. cbn [nth]. ring. }
  rewrite G by assumption. ring.
Qed.

Lemma lagrange_reconstruct v samples f cs : Forall int64_ok samples -> NoDup samples ->
  lagrange_at_value v samples = Ok cs -> isp (length samples) f ->
  interpolate_scalar cs (map (fun i => f (from_node_index i)) samples) = Ok (f v).
Proof.
  intros Hf Hd Hc Hp.
  destruct samples as [|s0 rest]; [discriminate|]. set (ss := s0 :: rest) in *.
  assert (Hne : ss <> []) by (unfold ss; discriminate).
  pose proof (lagrange_value_spec v ss Hf Hd Hne) as E. clearbody ss.
  assert (cs = map (spec_lagrange v (map from_node_index ss)) (seq 0 (length ss))) as -> by congruence.
  rewrite interpolate_scalar_sum.
  - rewrite !map_length, !seq_length.
    rewrite <- (lagrange_sum (map from_node_index ss) f) by
      (try apply nodes_nodup; rewrite ?map_length; assumption).
    rewrite map_length. f_equal. apply fsum_map_ext. intros i Hi. apply in_seq in Hi. cbn [Nat.add] in Hi.
    rewrite nth_map_seq by lia. f_equal.
    rewrite (nth_indep _ fzero (f (from_node_index 0))) by (rewrite map_length; lia).
    rewrite (map_nth (fun i => f (from_node_index i))).
    rewrite (nth_indep _ fzero (from_node_index 0)) by (rewrite map_length; lia).
    rewrite map_nth. reflexivity.
  - rewrite !map_length, seq_length. reflexivity.
  - destruct ss; [congruence|discriminate].
Qed.
