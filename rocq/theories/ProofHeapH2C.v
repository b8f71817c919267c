(** Hash-to-curve with explicit field element cells: the values are those
    of ModelH2C. *)
From Coq Require Import ZArith Lia Bool String List.
From Verif Require Import Base BaseFacts Zmod Fields ModelScalar ModelXmd ModelRo ModelPoly ModelGroup ModelCommit ModelZk ModelMega
  ModelDealing ModelKey ModelSign ModelSecp ModelH2C ModelHeap ModelHeapSign ModelHeapH2C SpecHeap SpecHeapH2C ProofHeap ProofFrame.
Import ListNotations.
Open Scope nat_scope.

(** ** Values: a memory [h] followed by the cells [l] made so far *)
Section RunH2C.
Context {X : Oracles} {GO : Grp}.
Lemma rd_old h l p c : get h p = Some c -> get (h ++ l) p = Some c.
Proof. apply app_ext. simpl; tauto. Qed.
Lemma rd_new h l k c : nth_error l k = Some c -> get (h ++ l) (List.length h + k) = Some c.
Proof. intros E. unfold get. rewrite nth_error_app2 by lia. now replace (List.length h + k - List.length h)%nat with k by lia. Qed.
Lemma upd_app h l k c : upd (h ++ l) (List.length h + k) c = h ++ upd l k c.
Proof. induction h; simpl; congruence. Qed.
Lemma load_run h p v : get h p = Some (VF v) -> load_f p h = (h, Ok v).
Proof. intros E. unfold load_f. now rewrite E. Qed.
Lemma curve_run h p v : get h p = Some (VF v) -> f_curve p h = (h, Ok tt).
Proof. intros E. unfold f_curve. now rewrite (hbind_run _ _ _ _ _ (load_run _ _ _ E)). Qed.
Lemma store_run h l k w v : nth_error l k = Some (VF w) ->
  store_f (List.length h + k) v (h ++ l) = (h ++ upd l k (VF v), Ok (List.length h + k)%nat).
Proof. intros E. unfold store_f. rewrite (rd_new _ _ _ _ E). now rewrite upd_app. Qed.
Lemma new_run h l v : f_new v (h ++ l) = (h ++ (l ++ [VF v]), Ok (List.length h + List.length l)%nat).
Proof. unfold f_new, alloc. now rewrite <- app_assoc, app_length. Qed.
Ltac lr := repeat (erewrite hbind_run by (apply load_run; eassumption)).
Lemma add_run h l k a b w x y : get (h ++ l) a = Some (VF x) -> get (h ++ l) b = Some (VF y) -> nth_error l k = Some (VF w) ->
  f_add (List.length h + k) a b (h ++ l) = (h ++ upd l k (VF (fadd x y)), Ok (List.length h + k)%nat).
Proof. intros. unfold f_add. lr. eapply store_run; eauto. Qed.
Lemma mul_run h l k a b w x y : get (h ++ l) a = Some (VF x) -> get (h ++ l) b = Some (VF y) -> nth_error l k = Some (VF w) ->
  f_mul (List.length h + k) a b (h ++ l) = (h ++ upd l k (VF (fmul x y)), Ok (List.length h + k)%nat).
Proof. intros. unfold f_mul. lr. eapply store_run; eauto. Qed.
Lemma square_run h l k a w x : get (h ++ l) a = Some (VF x) -> nth_error l k = Some (VF w) ->
  f_square (List.length h + k) a (h ++ l) = (h ++ upd l k (VF (fmul x x)), Ok (List.length h + k)%nat).
Proof. intros. unfold f_square. lr. eapply store_run; eauto. Qed.
Lemma assign_run h l k a w x : get (h ++ l) a = Some (VF x) -> nth_error l k = Some (VF w) ->
  f_assign (List.length h + k) a (h ++ l) = (h ++ upd l k (VF x), Ok (List.length h + k)%nat).
Proof. intros. unfold f_assign. lr. eapply store_run; eauto. Qed.
Lemma invert_run h l k a w x : get (h ++ l) a = Some (VF x) -> nth_error l k = Some (VF w) ->
  f_invert (List.length h + k) a (h ++ l) = (h ++ upd l k (VF (finv x)), Ok (List.length h + k)%nat).
Proof. intros. unfold f_invert. lr. eapply store_run; eauto. Qed.
Lemma negate_run h l k a w x : get (h ++ l) a = Some (VF x) -> nth_error l k = Some (VF w) ->
  f_negate (List.length h + k) a (h ++ l) = (h ++ upd l k (VF (fneg x)), Ok (List.length h + k)%nat).
Proof. intros. unfold f_negate. lr. eapply store_run; eauto. Qed.
Lemma progenitor_run h l k a w x : get (h ++ l) a = Some (VF x) -> nth_error l k = Some (VF w) ->
  f_progenitor (List.length h + k) a (h ++ l) = (h ++ upd l k (VF (fe_progenitor x)), Ok (List.length h + k)%nat).
Proof. intros. unfold f_progenitor. lr. eapply store_run; eauto. Qed.
Lemma cassign_run h l k a c w x : get (h ++ l) a = Some (VF x) -> nth_error l k = Some (VF w) ->
  f_cassign (List.length h + k) a c (h ++ l) = (h ++ upd l k (VF (cmov w x c)), Ok (List.length h + k)%nat).
Proof.
  intros A B. unfold f_cassign. erewrite hbind_run by (apply load_run; apply rd_new; exact B). lr. eapply store_run; eauto.
Qed.
Lemma equal_run h a b x y : get h a = Some (VF x) -> get h b = Some (VF y) -> f_equal a b h = (h, Ok (feqb x y)).
Proof. intros. unfold f_equal. lr. reflexivity. Qed.
Lemma is_zero_f_run h a x : get h a = Some (VF x) -> f_is_zero a h = (h, Ok (feqb x fzero)).
Proof. intros. unfold f_is_zero. lr. reflexivity. Qed.
Lemma sign_run h a x : get h a = Some (VF x) -> f_sign a h = (h, Ok (fe_sign x)).
Proof. intros. unfold f_sign. lr. reflexivity. Qed.

Opaque fadd fmul fneg finv feqb fe_progenitor fe_sign fp_of_big.
(** one step of a straight-line program *)
Ltac rd := lazymatch goal with
  | |- get (_ ++ _) (_ + _) = _ => apply rd_new; reflexivity
  | |- _ => first [eassumption | apply rd_old; eassumption]
  end.
Ltac run1 := lazymatch goal with
  | |- f_new _ _ = _ => apply new_run
  | |- f_add _ _ _ _ = _ => eapply add_run; [rd|rd|reflexivity]
  | |- f_mul _ _ _ _ = _ => eapply mul_run; [rd|rd|reflexivity]
  | |- f_square _ _ _ = _ => eapply square_run; [rd|reflexivity]
  | |- f_assign _ _ _ = _ => eapply assign_run; [rd|reflexivity]
  | |- f_invert _ _ _ = _ => eapply invert_run; [rd|reflexivity]
  | |- f_negate _ _ _ = _ => eapply negate_run; [rd|reflexivity]
  | |- f_progenitor _ _ _ = _ => eapply progenitor_run; [rd|reflexivity]
  | |- f_cassign _ _ _ _ = _ => eapply cassign_run; [rd|reflexivity]
  | |- f_equal _ _ _ = _ => eapply equal_run; rd
  | |- f_is_zero _ _ = _ => eapply is_zero_f_run; rd
  | |- f_sign _ _ = _ => eapply sign_run; rd
  | |- f_curve _ _ = _ => eapply curve_run; rd
  end.
Ltac nrm := cbn [upd app List.length fst snd].
Ltac st := erewrite hbind_run by run1; nrm.
Lemma start {A} (m : M A) h r : m (h ++ []) = r -> m h = r.
Proof. now rewrite app_nil_r. Qed.

Lemma cmov_run h l a b c x y : get (h ++ l) a = Some (VF x) -> get (h ++ l) b = Some (VF y) ->
  h_cmov a b c (h ++ l) = (h ++ (l ++ [VF (cmov x y c)]), Ok (List.length h + List.length l)%nat).
Proof.
  intros A B. set (H := h ++ l) in *. replace (h ++ (l ++ [VF (cmov x y c)])) with (H ++ [VF (cmov x y c)]) by (unfold H; now rewrite app_assoc).
  replace (List.length h + List.length l)%nat with (List.length H + 0)%nat by (unfold H; rewrite app_length; lia).
  clearbody H. apply start. unfold h_cmov. repeat st. reflexivity.
Qed.
Lemma x2_run h l x a b vx va vb : get (h ++ l) x = Some (VF vx) -> get (h ++ l) a = Some (VF va) -> get (h ++ l) b = Some (VF vb) ->
  h_x2_xc1_c2 x a b (h ++ l) = (h ++ (l ++ [VF (x2_xc1_c2 vx va vb)]), Ok (List.length h + List.length l)%nat).
Proof.
  intros A B C. set (H := h ++ l) in *. rewrite app_assoc. fold H.
  replace (List.length h + List.length l)%nat with (List.length H + 0)%nat by (unfold H; rewrite app_length; lia).
  clearbody H. apply start. unfold h_x2_xc1_c2. repeat st. erewrite add_run; [|rd|rd|reflexivity]. reflexivity.
Qed.
Lemma x3c_run h l x a b c d vx va vb vc vd : get (h ++ l) x = Some (VF vx) -> get (h ++ l) a = Some (VF va) -> get (h ++ l) b = Some (VF vb) ->
  get (h ++ l) c = Some (VF vc) -> get (h ++ l) d = Some (VF vd) ->
  h_x3c1_x2c2_xc3_c4 x a b c d (h ++ l) = (h ++ (l ++ [VF (x3c1_x2c2_xc3_c4 vx va vb vc vd)]), Ok (List.length h + List.length l)%nat).
Proof.
  intros A B C D E. set (H := h ++ l) in *. rewrite app_assoc. fold H.
  replace (List.length h + List.length l)%nat with (List.length H + 0)%nat by (unfold H; rewrite app_length; lia).
  clearbody H. apply start. unfold h_x3c1_x2c2_xc3_c4. repeat st. erewrite add_run; [|rd|rd|reflexivity]. reflexivity.
Qed.
Lemma x3_run h l x a b c vx va vb vc : get (h ++ l) x = Some (VF vx) -> get (h ++ l) a = Some (VF va) -> get (h ++ l) b = Some (VF vb) ->
  get (h ++ l) c = Some (VF vc) ->
  h_x3_x2c1_xc2_c3 x a b c (h ++ l) = (h ++ (l ++ [VF (x3_x2c1_xc2_c3 vx va vb vc)]), Ok (List.length h + List.length l)%nat).
Proof.
  intros A B C D. set (H := h ++ l) in *. rewrite app_assoc. fold H.
  replace (List.length h + List.length l)%nat with (List.length H + 0)%nat by (unfold H; rewrite app_length; lia).
  clearbody H. apply start. unfold h_x3_x2c1_xc2_c3. erewrite hbind_run by (eapply x2_run; rd). nrm. repeat st.
  erewrite add_run; [|rd|rd|reflexivity]. reflexivity.
Qed.

(** sqrtRatio makes seven cells, the last one for its result *)
Lemma sqrt_ratio_run h l u v x y : get (h ++ l) u = Some (VF x) -> get (h ++ l) v = Some (VF y) ->
  match sqrt_ratio x y with
  | Ok (y1, sq) => exists c0 c1 c2 c3 c4 c5, h_sqrt_ratio u v (h ++ l) =
      (h ++ (l ++ [c0; c1; c2; c3; c4; c5; VF y1]), Ok (List.length h + (List.length l + 6), sq))
  | Err => h_sqrt_ratio u v (h ++ l) = (h ++ l, Err)
  | _ => False
  end.
Proof.
  intros A B. unfold h_sqrt_ratio, sqrt_ratio. do 3 st. destruct (feqb y fzero); [reflexivity|].
  cbv zeta. do 6 eexists. set (H := h ++ l) in *. rewrite app_assoc. fold H.
  replace (List.length h + (List.length l + 6)) with (List.length H + 6) by (unfold H; rewrite app_length; lia).
  clearbody H. apply start. repeat st. erewrite hbind_run by (eapply cmov_run; rd). nrm. reflexivity.
Qed.
Lemma hbind_err {A B} (m : M A) (k : A -> M B) h h' : m h = (h', Err) -> hbind m k h = (h', Err).
Proof. intros E. unfold hbind. now rewrite E. Qed.
Lemma sswu_run h u x : get h u = Some (VF x) ->
  match sswu x with
  | Ok (vx, vy) => exists l i j, h_sswu u h = (h ++ l, Ok (List.length h + i, List.length h + j)) /\ i <> j /\
      nth_error l i = Some (VF vx) /\ nth_error l j = Some (VF vy)
  | Err => exists l, h_sswu u h = (h ++ l, Err)
  | _ => False
  end.
Proof.
  intros A. unfold sswu. cbv zeta.
  match goal with |- context [sqrt_ratio ?a ?b] => set (tv2 := a); set (tv6 := b) end.
  assert (exists a b cs k,
    h_sswu u h = hbind (h_sqrt_ratio a b) k (h ++ cs) /\ get (h ++ cs) a = Some (VF tv2) /\ get (h ++ cs) b = Some (VF tv6) /\
    match sqrt_ratio tv2 tv6 with
    | Ok (y1, sq) => forall c0 c1 c2 c3 c4 c5, exists l i j,
       k (List.length h + (List.length cs + 6), sq) (h ++ (cs ++ [c0; c1; c2; c3; c4; c5; VF y1])) =
         (h ++ l, Ok (List.length h + i, List.length h + j)) /\ i <> j /\
         nth_error l i = Some (VF (fmul (cmov
            (fmul (fmul sswu_z (fmul x x)) (fmul (fadd (fadd (fmul (fmul sswu_z (fmul x x)) (fmul sswu_z (fmul x x))) (fmul sswu_z (fmul x x))) fone) sswu_b))
            (fmul (fadd (fadd (fmul (fmul sswu_z (fmul x x)) (fmul sswu_z (fmul x x))) (fmul sswu_z (fmul x x))) fone) sswu_b) sq)
            (finv (fmul (cmov sswu_z (fneg (fadd (fmul (fmul sswu_z (fmul x x)) (fmul sswu_z (fmul x x))) (fmul sswu_z (fmul x x))))
                  (negb (feqb (fadd (fmul (fmul sswu_z (fmul x x)) (fmul sswu_z (fmul x x))) (fmul sswu_z (fmul x x))) fzero))) sswu_a)))) /\
         nth_error l j = Some (VF (let y := cmov (fmul (fmul (fmul sswu_z (fmul x x)) x) y1) y1 sq in
            cmov (fneg y) y (Z.eqb (Z.lxor (Z.lxor (fe_sign x) (fe_sign y)) 1) 1)))
    | _ => True
    end) as (a & b & cs & k & E & Ga & Gb & K).
  { do 4 eexists. split; [|split; [|split]].
    - apply start. unfold h_sswu. do 18 st. erewrite hbind_run by (eapply cmov_run; rd). nrm. do 14 st. reflexivity.
    - rd.
    - rd.
    - destruct (sqrt_ratio tv2 tv6) as [[y1 sq]| | |]; try exact I. intros c0 c1 c2 c3 c4 c5. do 3 eexists. split; [|split; [|split]].
      + nrm. do 3 st. erewrite hbind_run by (eapply cmov_run; rd). nrm.
        erewrite hbind_run by (eapply cmov_run; rd). nrm. do 4 st.
        erewrite hbind_run by (eapply cmov_run; rd). nrm. do 2 st. reflexivity.
      + discriminate.
      + reflexivity.
      + reflexivity. }
  pose proof (sqrt_ratio_run h cs a b tv2 tv6 Ga Gb) as Q.
  destruct (sqrt_ratio tv2 tv6) as [[y1 sq]| | |]; simpl bind; try contradiction.
  - destruct Q as (c0 & c1 & c2 & c3 & c4 & c5 & Q). destruct (K c0 c1 c2 c3 c4 c5) as (l & i & j & E1 & N & E2 & E3).
    exists l, i, j. rewrite E, (hbind_run _ _ _ _ _ Q). auto.
  - exists cs. rewrite E. now apply hbind_err.
Qed.

Lemma isogeny_run kc h x y vx vy : get h x = Some (VF vx) -> get h y = Some (VF vy) -> constants_at h kc ->
  exists l i, h_sswu_isogeny kc x y h =
    (upd (h ++ l) y (VF (snd (sswu_isogeny vx vy))), Ok (List.length h + i, y)) /\
    nth_error l i = Some (VF (fst (sswu_isogeny vx vy))).
Proof.
  intros A B C. unfold constants_at, field_at in C.
  repeat match goal with H : Forall2 _ _ _ |- _ => cbn [seq] in H; inversion H; clear H; subst end.
  repeat match goal with H : nth_error h _ = Some _ |- _ => change (nth_error h) with (get h) in H end.
  do 2 eexists. split.
  - apply start. unfold h_sswu_isogeny. erewrite hbind_run by (eapply x3c_run; rd). nrm.
    erewrite hbind_run by (eapply x2_run; rd). nrm. erewrite hbind_run by (eapply x3c_run; rd). nrm.
    erewrite hbind_run by (eapply x3_run; rd). nrm. do 9 st.
    unfold f_mul at 1. unfold hbind at 2. unfold hbind at 1. erewrite load_run by rd. unfold hbind at 1.
    erewrite load_run by rd. unfold store_f. erewrite rd_old by eassumption. reflexivity.
  - reflexivity.
Qed.
End RunH2C.

(** ** Results as refinements *)
Section RefineH2C.
Context {X : Oracles} {GO : Grp}.
Definition isf (p : ptr) : heap -> ptr -> Fp -> Prop := fun h' a v => a = p /\ get h' p = Some (VF v).
Definition newf (h : heap) : heap -> ptr -> Fp -> Prop := fun h' a v => get h' a = Some (VF v) /\ List.length h <= a.
Lemma store_f_ok h p w v : get h p = Some (VF w) -> refines [p] h h (store_f p v) (isf p) (Ok v).
Proof. intros E. unfold refines, store_f. rewrite E. simpl. split; [apply upd_ext|]. split; [reflexivity|]. eapply upd_same; eauto. Qed.
Ltac op1 := intros; unfold refines, hbind; repeat (erewrite load_run by eassumption).
Lemma f_assign_ok h r a w x : get h r = Some (VF w) -> get h a = Some (VF x) -> refines [r] h h (f_assign r a) (isf r) (Ok x).
Proof. intros. unfold f_assign. op1. now apply (store_f_ok h r w). Qed.
Lemma f_add_ok h r a b w x y : get h r = Some (VF w) -> get h a = Some (VF x) -> get h b = Some (VF y) ->
  refines [r] h h (f_add r a b) (isf r) (Ok (fadd x y)).
Proof. intros. unfold f_add. op1. now apply (store_f_ok h r w). Qed.
Lemma f_sub_ok h r a b w x y : get h r = Some (VF w) -> get h a = Some (VF x) -> get h b = Some (VF y) ->
  refines [r] h h (f_sub r a b) (isf r) (Ok (fsub x y)).
Proof. intros. unfold f_sub. op1. now apply (store_f_ok h r w). Qed.
Lemma f_mul_ok h r a b w x y : get h r = Some (VF w) -> get h a = Some (VF x) -> get h b = Some (VF y) ->
  refines [r] h h (f_mul r a b) (isf r) (Ok (fmul x y)).
Proof. intros. unfold f_mul. op1. now apply (store_f_ok h r w). Qed.
Lemma f_square_ok h r a w x : get h r = Some (VF w) -> get h a = Some (VF x) -> refines [r] h h (f_square r a) (isf r) (Ok (fmul x x)).
Proof. intros. unfold f_square. op1. now apply (store_f_ok h r w). Qed.
Lemma f_invert_ok h r a w x : get h r = Some (VF w) -> get h a = Some (VF x) -> refines [r] h h (f_invert r a) (isf r) (Ok (finv x)).
Proof. intros. unfold f_invert. op1. now apply (store_f_ok h r w). Qed.
Lemma f_negate_ok h r a w x : get h r = Some (VF w) -> get h a = Some (VF x) -> refines [r] h h (f_negate r a) (isf r) (Ok (fneg x)).
Proof. intros. unfold f_negate. op1. now apply (store_f_ok h r w). Qed.
Lemma f_progenitor_ok h r a w x : get h r = Some (VF w) -> get h a = Some (VF x) ->
  refines [r] h h (f_progenitor r a) (isf r) (Ok (fe_progenitor x)).
Proof. intros. unfold f_progenitor. op1. now apply (store_f_ok h r w). Qed.
Lemma f_cassign_ok h r a c w x : get h r = Some (VF w) -> get h a = Some (VF x) ->
  refines [r] h h (f_cassign r a c) (isf r) (Ok (if c then x else w)).
Proof. intros. unfold f_cassign. op1. now apply (store_f_ok h r w). Qed.
Lemma f_sqrt_ok h r a w x : get h r = Some (VF w) -> get h a = Some (VF x) ->
  refines [r] h h (f_sqrt r a) (fun h' p v => isf r h' (fst p) (fst v) /\ snd p = snd v) (Ok (fe_sqrt x)).
Proof.
  intros A B. unfold f_sqrt, refines, hbind. erewrite load_run by eassumption. unfold store_f. rewrite A. unfold hret.
  generalize (fe_sqrt x). intros [s b]. cbn [fst snd rel].
  split; [apply upd_ext|]. split; [|reflexivity]. split; [reflexivity|]. eapply upd_same; eauto.
Qed.
Lemma f_clone_ok h a x : get h a = Some (VF x) -> refines [] h h (f_clone a) (newf h) (Ok x).
Proof.
  intros A. unfold f_clone, refines. unfold hbind, f_new, alloc. unfold f_assign, hbind.
  erewrite load_run by (apply rd_old; eassumption). unfold store_f. rewrite app_new. cbn [fst snd rel]. split.
  - eapply ext_fresh; [apply app_ext|apply upd_ext|]. constructor; [lia|constructor].
  - split; [|lia]. eapply upd_same. apply app_new.
Qed.
Lemma h_cmov_ok h a b c x y : get h a = Some (VF x) -> get h b = Some (VF y) -> refines [] h h (h_cmov a b c) (newf h) (Ok (cmov x y c)).
Proof.
  intros A B. pose proof (cmov_run h [] a b c x y (rd_old _ _ _ _ A) (rd_old _ _ _ _ B)) as E. rewrite app_nil_r in E.
  unfold refines. rewrite E. cbn [fst snd rel app List.length]. split; [apply app_ext|]. split; [|lia]. now apply rd_new.
Qed.
Lemma h_sqrt_ratio_ok h u v x y : get h u = Some (VF x) -> get h v = Some (VF y) ->
  refines [] h h (h_sqrt_ratio u v) (fun h' a b => newf h h' (fst a) (fst b) /\ snd a = snd b) (sqrt_ratio x y).
Proof.
  intros A B. pose proof (sqrt_ratio_run h [] u v x y (rd_old _ _ _ _ A) (rd_old _ _ _ _ B)) as E. rewrite app_nil_r in E.
  unfold refines. destruct (sqrt_ratio x y) as [[y1 sq]| | |]; try contradiction.
  - destruct E as (c0 & c1 & c2 & c3 & c4 & c5 & E). rewrite E. cbn [fst snd rel app List.length]. split; [apply app_ext|].
    split; [|reflexivity]. split; [|lia]. now apply rd_new.
  - rewrite E. split; [apply ext_refl|exact I].
Qed.
Definition new_pair (h : heap) : heap -> ptr * ptr -> Fp * Fp -> Prop :=
  fun h' a b => newf h h' (fst a) (fst b) /\ newf h h' (snd a) (snd b) /\ fst a <> snd a.
Lemma h_sswu_ok h u x : get h u = Some (VF x) -> refines [] h h (h_sswu u) (new_pair h) (sswu x).
Proof.
  intros A. pose proof (sswu_run h u x A) as E. unfold refines. destruct (sswu x) as [[vx vy]| | |]; try contradiction.
  - destruct E as (l & i & j & E & N & E1 & E2). rewrite E. cbn [fst snd rel]. split; [apply app_ext|].
    split; [split; [now apply rd_new|cbn; lia]|]. split; [split; [now apply rd_new|cbn; lia]|cbn; lia].
  - destruct E as (l & E). rewrite E. split; [apply app_ext|exact I].
Qed.
Lemma upd_other h p c q d : p <> q -> get h q = Some d -> get (upd h p c) q = Some d.
Proof. intros N E. rewrite upd_get. destruct (Nat.eqb_spec p q); [contradiction|exact E]. Qed.
Lemma h_sswu_isogeny_ok kc h x y vx vy : get h x = Some (VF vx) -> get h y = Some (VF vy) -> constants_at h kc ->
  refines [y] h h (h_sswu_isogeny kc x y)
    (fun h' a b => newf h h' (fst a) (fst b) /\ isf y h' (snd a) (snd b)) (Ok (sswu_isogeny vx vy)).
Proof.
  intros A B C. destruct (isogeny_run kc h x y vx vy A B C) as (l & i & E & E1). unfold refines. rewrite E. cbn [fst snd rel]. split.
  - eapply ext_trans; [eapply ext_weak; [|apply app_ext]; simpl; tauto|apply upd_ext].
  - apply get_lt in B as L. split.
    + split; [|cbn; lia]. apply upd_other; [cbn; lia|now apply rd_new].
    + split; [reflexivity|]. eapply upd_same. eapply rd_old; eauto.
Qed.
Lemma constants_ext h h' kc : ext h h' -> constants_at h kc -> constants_at h' kc.
Proof. intros E. unfold constants_at. induction 1; constructor; [now apply (ext_get h)|assumption]. Qed.
Lemma h_map_to_curve_ok kc h u x : get h u = Some (VF x) -> constants_at h kc ->
  refines [] h h (h_map_to_curve kc u) (fun _ a b => a = b) (map_to_curve x).
Proof.
  intros A C. unfold h_map_to_curve, map_to_curve.
  eapply ref_bind; [apply h_sswu_ok; exact A|apply ext_refl|wr|]. intros h1 a [vx vy] E1 _ ((G1 & L1) & (G2 & L2) & N). cbn [fst snd] in *.
  eapply ref_run; [eapply curve_run; exact (ext_get _ _ _ _ E1 A)|].
  destruct (sswu_isogeny vx vy) as [x' y'] eqn:S.
  eapply ref_step; [eapply h_sswu_isogeny_ok; [exact G1|exact G2|exact (constants_ext _ _ _ E1 C)]|exact E1|wr|].
  intros h2 b E2 E3 [(G3 & L3) (Eb & G4)]. rewrite S in *. cbn [fst snd] in *.
  eapply ref_run; [eapply load_run; exact G3|]. eapply ref_run; [eapply load_run; rewrite Eb; exact G4|].
  apply ref_lift. exact E3.
Qed.
Lemma h_hash_to_field_ok n i d h :
  refines [] h h (h_hash_to_field n i d)
    (fun h' ps vs => Forall2 (fun p v => get h' p = Some (VF v)) ps vs /\ Forall (fun p => List.length h <= p) ps /\ NoDup ps)
    (hash_to_field n i d).
Proof.
  unfold h_hash_to_field, refines, hbind, hlift.
  destruct (hash_to_field n i d) as [vs| | |]; try (split; [apply ext_refl|exact I]).
  assert (R : forall vs h, exists ps, hmap f_new vs h = (h ++ map VF vs, Ok ps) /\
    Forall2 (fun p v => get (h ++ map VF vs) p = Some (VF v)) ps vs /\ Forall (fun p => List.length h <= p) ps /\ NoDup ps).
  { clear. induction vs as [|v vs IH]; intros h; simpl.
    - exists []. rewrite app_nil_r. repeat split; constructor.
    - unfold hbind. unfold f_new at 1, alloc. destruct (IH (h ++ [VF v])) as (ps & E & F & L & N).
      rewrite <- app_assoc in E, F. simpl in E, F.
      rewrite E. exists (List.length h :: ps). split; [reflexivity|]. split; [|split].
      + constructor; [|exact F]. rewrite <- (Nat.add_0_r (List.length h)). now apply rd_new.
      + constructor; [lia|]. eapply Forall_impl; [|exact L]. intros p. rewrite app_length. lia.
      + constructor; [|exact N]. intros I. rewrite Forall_forall in L. apply L in I. rewrite app_length in I. simpl in I. lia. }
  destruct (R vs h) as (ps & E & F & L & N). rewrite E. cbn [fst snd rel]. split; [apply app_ext|auto].
Qed.
Lemma mapM_length {A B} (f : A -> res B) l r : mapM f l = Ok r -> List.length r = List.length l.
Proof.
  revert r. induction l as [|a l IH]; intros r; simpl; [now intros [= <-]|]. destruct (f a); simpl; try discriminate.
  destruct (mapM f l); simpl; try discriminate. intros [= <-]. simpl. f_equal. now apply IH.
Qed.
Lemma hash_to_field_two i d vs : hash_to_field 2 i d = Ok vs -> exists a b, vs = [a; b].
Proof.
  unfold hash_to_field. destruct (expand_message_xmd _ _ _); cbn [bind]; try discriminate. intros E. apply mapM_length in E.
  rewrite seq_length in E. destruct vs as [|v0 [|v1 [|]]]; try discriminate. eauto.
Qed.
Lemma ref_eq {A B} ws h0 h (m : M A) (R : heap -> A -> B -> Prop) (r : res B) :
  refines ws h0 h m R r -> refines ws h0 h m (fun h' a b => R h' a b /\ r = Ok b) r.
Proof. intros [E Q]. split; [exact E|]. destruct (snd (m h)), r; simpl in *; auto. Qed.
Lemma h_hash_to_curve_ro_ok kc i d h : constants_at h kc ->
  refines [] h h (h_hash_to_curve_ro kc i d) (fun _ a b => a = b) (hash_to_curve_ro i d).
Proof.
  intros C. unfold h_hash_to_curve_ro, hash_to_curve_ro.
  eapply ref_bind; [apply ref_eq, h_hash_to_field_ok|apply ext_refl|wr|]. intros h1 ps vs _ E0 [(F & _) W].
  apply hash_to_field_two in W as (v0 & v1 & ->). inversion F as [|u0 ? l ? G0 F1]; subst. inversion F1 as [|u1 ? l2 ? G1 F2]; subst.
  cbn [nth].
  eapply ref_bind; [apply h_map_to_curve_ok; [exact G0|exact (constants_ext _ _ _ E0 C)]|exact E0|wr|]. intros h2 q0 ? E1 E2 <-.
  eapply ref_bind; [apply h_map_to_curve_ok; [exact (ext_get _ _ _ _ E1 G1)|exact (constants_ext _ _ _ E2 C)]|exact E2|wr|].
  intros h3 q1 ? E3 E4 <-. destruct q0, q1; first [apply ref_ret; [exact E4|reflexivity] | apply ref_panic; exact E4].
Qed.
End RefineH2C.
