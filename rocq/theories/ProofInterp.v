(** Newton interpolation as coded: soundness and exact success condition. *)
From Coq Require Import ZArith Lia Bool List Ring Field Permutation.
From Verif Require Import Base BaseFacts Zmod Fields ModelScalar ProofScalar ModelPoly SpecPoly ProofPoly.
Import ListNotations.
Open Scope Z_scope.

Definition root_prod (xs : list Fq) (v : Fq) : Fq := fprod (map (fun x => fsub v x) xs).
Lemma root_prod_app xs ys v : root_prod (xs ++ ys) v = fmul (root_prod xs v) (root_prod ys v).
Proof. unfold root_prod, fprod. induction xs as [|x xs IH]; cbn [map app fold_right]; [ring|]. rewrite IH. ring. Qed.
Lemma root_prod_zero xs v : root_prod xs v = fzero <-> In v xs.
Proof.
  induction xs as [|x xs IH]; cbn.
  - split; [|tauto]. intros H. exfalso. revert H. apply fone_neq_fzero, q_prime.
  - split.
    + intros H. apply (fmul_integral q_prime) in H. destruct H as [H|H].
      * left. symmetry. apply fsub_zero, H.
      * right. apply IH, H.
    + intros [->|H]; [|apply IH in H; unfold root_prod, fprod in H; rewrite H]; ring.
Qed.

Lemma finv_zero_iff (a : Fq) : finv a = fzero <-> a = fzero.
Proof.
  split.
  - intros H. destruct (fe_dec _ a fzero) as [E|E]; [exact E|].
    pose proof (finv_l q_prime a E) as E'. rewrite H in E'.
    exfalso. apply (fone_neq_fzero q_prime). rewrite <- E'. ring.
  - intros ->. apply finv_zero, q_prime.
Qed.

Record inv (prev : list (Fq * Fq)) (po base : list Fq) : Prop := {
  i_po : length po = length prev;
  i_base : length base = S (length prev);
  i_nd : NoDup (map fst prev);
  i_pass : forall s, In s prev -> pev po (fst s) = snd s;
  i_root : exists c, c <> fzero /\ forall v, pev base v = fmul c (root_prod (map fst prev) v)
}.

Definition cond (prev ss : list (Fq * Fq)) : Prop :=
  NoDup (map fst (prev ++ ss)) /\
  forall pre s post, prev ++ ss = pre ++ s :: post -> (length prev <= length pre)%nat ->
    post <> [] -> ~ on_previous pre s.

Lemma split_at {A} (prev pre ss post : list A) (s t : A) :
  prev ++ t :: ss = pre ++ s :: post -> (length prev <= length pre)%nat ->
  (pre = prev /\ s = t /\ post = ss) \/ (S (length prev) <= length pre)%nat.
Proof.
  revert pre. induction prev as [|a prev IH]; intros pre E Hl.
  - destruct pre; cbn in *; [left|right; lia]. injection E as -> ->. auto.
  - destruct pre as [|b pre]; [cbn in Hl; lia|]. cbn [app length] in *. injection E as -> E.
    destruct (IH _ E) as [(-> & -> & ->)|H]; [lia|left; auto|right; lia].
Qed.

Lemma loop_spec : forall ss prev po base, inv prev po base ->
  (exists p, interpolate_loop ss po base = Ok p /\ length p = (length prev + length ss)%nat /\
      (forall s, In s (prev ++ ss) -> pev p (fst s) = snd s) /\ cond prev ss) \/
  (interpolate_loop ss po base = Err /\ ~ cond prev ss).
Proof.
  induction ss as [|[x y] ss IH]; intros prev po base HI.
  - left. exists po. cbn [interpolate_loop length]. rewrite app_nil_r.
    destruct HI as [H1 H2 H3 H4 H5]. split; [reflexivity|]. split; [lia|]. split; [assumption|].
    split; [rewrite app_nil_r; assumption|]. intros pre s post E Hl. rewrite app_nil_r in E.
    exfalso. apply (f_equal (@length _)) in E. rewrite app_length in E. cbn in E. lia.
  - cbn [interpolate_loop]. rewrite !evaluate_at_pev.
    destruct HI as [H1 H2 H3 H4 [c [Hc H5]]].
    assert (Happ : prev ++ (x, y) :: ss = (prev ++ [(x, y)]) ++ ss) by (rewrite <- app_assoc; reflexivity).
    destruct (feqb (finv (pev base x)) fzero) eqn:Ei.
    + right. split; [reflexivity|]. apply feqb_eq in Ei. apply (proj1 (finv_zero_iff _)) in Ei. rewrite H5 in Ei.
      apply (fmul_integral q_prime) in Ei. destruct Ei as [Ei|Ei]; [contradiction|].
      apply root_prod_zero in Ei. intros [Hn _]. rewrite map_app in Hn. cbn [map fst] in Hn.
      apply NoDup_remove_2 in Hn. apply Hn, in_or_app. left. exact Ei.
    + apply feqb_neq in Ei. rewrite poly_mul_scalar_self. cbn [bind].
      set (d := fmul (fsub y (pev po x)) (finv (pev base x))).
      assert (Hb : pev base x <> fzero) by (intros E; apply Ei, finv_zero_iff, E).
      assert (Hx : ~ In x (map fst prev)).
      { intros Hx. apply root_prod_zero in Hx. apply Hb. rewrite H5, Hx. ring. }
      assert (Hdx : fmul d (pev base x) = fsub y (pev po x)) by (unfold d; field; exact Hb).
      set (po' := poly_add po (pscale d base)).
      set (base' := poly_mul (pscale d base) [fneg x; fone]).
      assert (Hpo' : forall v, pev po' v = fadd (pev po v) (fmul d (pev base v))).
      { intros v. unfold po'. rewrite poly_add_pev, pscale_pev. reflexivity. }
      assert (Hpass : forall s, In s (prev ++ [(x, y)]) -> pev po' (fst s) = snd s).
      { intros s Hs. rewrite Hpo'. apply in_app_iff in Hs. destruct Hs as [Hs|[<-|[]]].
        - rewrite (H4 s Hs), H5.
          assert (root_prod (map fst prev) (fst s) = fzero) as ->
            by (apply root_prod_zero, in_map, Hs). ring.
        - cbn [fst snd]. rewrite Hdx. ring. }
      assert (Hlen : length po' = length (prev ++ [(x, y)])).
      { unfold po'. rewrite poly_add_length. unfold pscale. rewrite map_length, app_length. cbn. lia. }
      assert (Hlen' : length base' = S (length (prev ++ [(x, y)]))).
      { unfold base'. rewrite poly_mul_length. unfold pscale. rewrite map_length, app_length. cbn. lia. }
      assert (Hnd : NoDup (map fst (prev ++ [(x, y)]))).
      { rewrite map_app. cbn [map fst]. apply (Permutation_NoDup (l := x :: map fst prev)).
        - apply Permutation_cons_append.
        - constructor; assumption. }
      assert (Hbase : forall v, pev base' v = fmul (fmul d c) (root_prod (map fst (prev ++ [(x, y)])) v)).
      { intros v. unfold base'. rewrite poly_mul_pev, pscale_pev, H5, map_app, root_prod_app.
        unfold root_prod at 3. cbn. ring. }
      destruct (fe_dec _ d fzero) as [Ed|Ed].
      * (* degenerate sample *)
        assert (Hprev : on_previous prev (x, y)).
        { exists po. split; [lia|]. split.
          - intros s' Hs'. rewrite pev_spec. apply H4, Hs'.
          - rewrite pev_spec. cbn [fst snd]. symmetry. apply fsub_zero. rewrite <- Hdx, Ed. ring. }
        destruct ss as [|[x2 y2] ss].
        -- left. exists po'. cbn [interpolate_loop]. split; [reflexivity|].
           split; [rewrite Hlen, app_length; reflexivity|]. split; [exact Hpass|].
           split; [exact Hnd|]. intros pre s post E Hl Hp.
           destruct (split_at _ _ _ _ _ _ E Hl) as [(-> & -> & ->)|H]; [congruence|].
           exfalso. apply (f_equal (@length _)) in E. rewrite !app_length in E. cbn in E.
           destruct post; [congruence|]. cbn in E. lia.
        -- right. split.
           ++ cbn [interpolate_loop]. rewrite !evaluate_at_pev, Hbase, Ed.
              assert (finv (fmul (fmul fzero c) (root_prod (map fst (prev ++ [(x, y)])) x2)) = fzero) as ->
                by (apply finv_zero_iff; ring).
              rewrite feqb_refl. reflexivity.
           ++ intros [_ Hc2]. apply (Hc2 prev (x, y) ((x2, y2) :: ss)); [reflexivity|lia|discriminate|exact Hprev].
      * destruct (IH (prev ++ [(x, y)]) po' base') as [(p & E & Hl & Hp & Hcond)|[E Hcond]].
        -- constructor; [exact Hlen|exact Hlen'|exact Hnd|exact Hpass|].
           exists (fmul d c). split; [|exact Hbase]. apply (fmul_neq0 q_prime); assumption.
        -- left. exists p. split; [exact E|]. split; [rewrite Hl, app_length; cbn; lia|].
           split; [rewrite Happ; exact Hp|]. destruct Hcond as [Hn Hcond].
           split; [rewrite Happ; exact Hn|]. intros pre s post Es Hls Hpost.
           destruct (split_at _ _ _ _ _ _ Es Hls) as [(-> & -> & ->)|H].
           ++ intros (c' & Hc1 & Hc2 & Hc3). apply Ed.
              rewrite pev_spec in Hc3. cbn [fst snd] in Hc3.
              assert (pev po x = y) as Ey.
              { rewrite <- Hc3. apply (agree_everywhere (map fst prev)); try assumption;
                  try (rewrite map_length; lia).
                intros z Hz. apply in_map_iff in Hz. destruct Hz as [s' [<- Hs']].
                rewrite (H4 s' Hs'), <- (Hc2 s' Hs'), pev_spec. reflexivity. }
              unfold d. rewrite Ey. ring.
           ++ apply (Hcond pre s post); [rewrite <- Happ; exact Es|rewrite app_length; cbn; lia|exact Hpost].
        -- right. split; [exact E|]. intros [Hn Hc2]. apply Hcond.
           split; [rewrite <- Happ; exact Hn|]. intros pre s post Es Hls Hpost.
           apply Hc2 with post; [rewrite Happ; exact Es| rewrite app_length in Hls; cbn in Hls; lia|exact Hpost].
Qed.

Lemma interpolate_spec ss :
  (exists p, interpolate ss = Ok p /\ length p = length ss /\ passes_through p ss /\ newton_possible ss) \/
  (interpolate ss = Err /\ ~ newton_possible ss).
Proof.
  destruct ss as [|[x0 y0] ss].
  - left. exists []. cbn. split; [reflexivity|]. split; [reflexivity|]. split; [intros s []|].
    split; [constructor|]. intros prev s post E. destruct prev; discriminate.
  - cbn [interpolate].
    destruct (loop_spec ss [(x0, y0)] [y0] [fneg x0; fone]) as [(p & E & Hl & Hp & Hn & Hc)|[E Hc]].
    + constructor; cbn; try reflexivity.
      * constructor; [tauto|constructor].
      * intros s [<-|[]]. cbn. ring.
      * exists fone. split; [apply fone_neq_fzero, q_prime|]. intros v. unfold root_prod. cbn. ring.
    + left. exists p. split; [exact E|]. split; [rewrite Hl; reflexivity|]. split.
      * intros s Hs. rewrite pev_spec. apply Hp, Hs.
      * split; [exact Hn|]. intros pre s post Es Hpre Hpost. apply Hc with post; [exact Es| |exact Hpost].
        destruct pre; [congruence|cbn; lia].
    + right. split; [exact E|]. intros [Hn Hc2]. apply Hc. split; [exact Hn|].
      intros pre s post Es Hpre Hpost. apply Hc2 with post; [exact Es| |exact Hpost].
      destruct pre; [cbn in Hpre; lia|discriminate].
Qed.
