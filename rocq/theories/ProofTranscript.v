(** Public verification, transcripts, reconstruction and combined openings. *)
From Coq Require Import ZArith Lia Bool String List Ring Field.
From Verif Require Import Base BaseFacts Zmod Fields ModelScalar ProofScalar ModelXmd ModelRo SpecPoly ModelPoly ProofPoly
  ProofLagrange ProofSecrecy ModelGroup GroupFacts SpecGroup ModelCommit ProofCommit ModelZk ProofZk ModelMega ProofMega
  ModelDealing SpecDealing ProofDealing.
Import ListNotations.
Open Scope Z_scope.

Section Sums.
Context {GO : Grp} {GL : GrpLaws GO}.

(** weighted sums of points and of scalars *)
Fixpoint wsum (cs : list Fq) (ps : list G) : G :=
  match cs, ps with c :: cs, P :: ps => gadd (smul c P) (wsum cs ps) | _, _ => gzero end.
Fixpoint fwsum (cs ys : list Fq) : Fq :=
  match cs, ys with c :: cs, y :: ys => fadd (fmul c y) (fwsum cs ys) | _, _ => fzero end.

Lemma interpolate_point_wsum cs ys : length ys = length cs -> cs <> [] -> interpolate_point cs ys = Ok (wsum cs ys).
Proof.
  intros H N. unfold interpolate_point. rewrite H, Nat.eqb_refl. cbn [negb].
  destruct cs as [|c0 cs0]; [congruence|]. f_equal.
  assert (E : forall cs ys (a : G), length ys = length cs ->
    fold_left (fun r cy => gadd r (smul (fst cy) (snd cy))) (combine cs ys) a = gadd a (wsum cs ys)).
  { clear - GL. induction cs as [|c cs IH]; intros [|y ys] a H; cbn [length] in H; try lia; cbn [combine fold_left wsum fst snd].
    - symmetry. apply gadd_0_r.
    - rewrite IH by lia. symmetry. apply gadd_assoc. }
  rewrite E by assumption. apply gadd_0_l.
Qed.
Lemma interpolate_scalar_wsum cs ys : length ys = length cs -> cs <> [] -> interpolate_scalar cs ys = Ok (fwsum cs ys).
Proof.
  intros H N. unfold interpolate_scalar. rewrite H, Nat.eqb_refl. cbn [negb].
  destruct cs as [|c0 cs0]; [congruence|]. f_equal.
  assert (E : forall cs ys (a : Fq), length ys = length cs ->
    fold_left (fun r cy => fadd r (fmul (snd cy) (fst cy))) (combine cs ys) a = fadd a (fwsum cs ys)).
  { clear. induction cs as [|c cs IH]; intros [|y ys] a H; cbn [length] in H; try lia; cbn [combine fold_left fwsum fst snd].
    - ring.
    - rewrite IH by lia. ring. }
  rewrite E by assumption. ring.
Qed.
Lemma wsum_add {A} (f g : A -> G) l : forall cs,
  wsum cs (map (fun a => gadd (f a) (g a)) l) = gadd (wsum cs (map f l)) (wsum cs (map g l)).
Proof.
  induction l as [|a l IH]; intros [|c cs]; cbn [map wsum]; rewrite ?IH; rewrite ?gadd_0_l; try reflexivity. gring.
Qed.
Lemma wsum_smul {A} (f : A -> G) x l : forall cs, wsum cs (map (fun a => smul x (f a)) l) = smul x (wsum cs (map f l)).
Proof. induction l as [|a l IH]; intros [|c cs]; cbn [map wsum]; rewrite ?IH, ?smul_gzero; try reflexivity. gring. Qed.
Lemma wsum_scal {A} (f : A -> Fq) P l : forall cs, wsum cs (map (fun a => smul (f a) P) l) = smul (fwsum cs (map f l)) P.
Proof. induction l as [|a l IH]; intros [|c cs]; cbn [map wsum fwsum]; rewrite ?IH, ?smul_zero; try reflexivity. gring. Qed.
Lemma wsum_pedersen {A} (f g : A -> Fq) l cs :
  wsum cs (map (fun a => pedersen (f a) (g a)) l) = pedersen (fwsum cs (map f l)) (fwsum cs (map g l)).
Proof.
  unfold pedersen, mul_points. rewrite (wsum_add (fun a => smul (f a) genG) (fun a => smul (g a) genH)), !wsum_scal. reflexivity.
Qed.
Lemma wsum_gzero {A} (l : list A) : forall cs, wsum cs (map (fun _ => gzero) l) = gzero.
Proof. induction l as [|a l IH]; intros [|c cs]; cbn [map wsum]; rewrite ?IH, ?smul_gzero, ?gadd_0_l; reflexivity. Qed.

Lemma gev_map_add {A} (f g : A -> G) s x : gev (map (fun k => gadd (f k) (g k)) s) x = gadd (gev (map f s) x) (gev (map g s) x).
Proof. induction s as [|a s IH]; cbn [map gev]; [symmetry; apply gadd_0_l|]. rewrite IH. gring. Qed.
Lemma gev_map_smul {A} c (f : A -> G) s x : gev (map (fun k => smul c (f k)) s) x = smul c (gev (map f s) x).
Proof. induction s as [|a s IH]; cbn [map gev]; [symmetry; apply smul_gzero|]. rewrite IH. gring. Qed.
Lemma gev_map_gzero {A} (s : list A) x : gev (map (fun _ => gzero) s) x = gzero.
Proof. induction s as [|a s IH]; cbn [map gev]; [reflexivity|]. rewrite IH, smul_gzero. apply gadd_0_l. Qed.
Lemma map_nth_self (l : list G) : map (fun i => nth i l gzero) (seq 0 (length l)) = l.
Proof. apply map_nth_seq. Qed.

(** evaluation commutes with taking the same combination of every coefficient *)
Lemma gev_wsum {A} (g : A -> list G) n l x : (forall a, In a l -> length (g a) = n) -> forall cs,
  gev (map (fun i => wsum cs (map (fun a => nth i (g a) gzero) l)) (seq 0 n)) x = wsum cs (map (fun a => gev (g a) x) l).
Proof.
  induction l as [|a l IH]; intros H [|c cs]; cbn [map wsum]; try apply gev_map_gzero.
  rewrite (gev_map_add (fun i => smul c (nth i (g a) gzero)) (fun i => wsum cs (map (fun a => nth i (g a) gzero) l))).
  rewrite IH by (intros b Hb; apply H; right; exact Hb). f_equal.
  rewrite gev_map_smul. f_equal. rewrite <- (H a) by (left; reflexivity). rewrite map_nth_self. reflexivity.
Qed.
Lemma gev_0 l : gev l fzero = nth 0 l gzero.
Proof. destruct l as [|P l]; cbn [gev nth]; [reflexivity|]. rewrite smul_zero. apply gadd_0_r. Qed.

Lemma lagrange_ok v ks : Forall int64_ok ks -> NoDup ks -> ks <> [] ->
  exists cs, lagrange_at_value v ks = Ok cs /\ length cs = length ks /\ cs <> [].
Proof.
  intros F N E. rewrite (lagrange_value_spec v ks F N E). eexists. split; [reflexivity|].
  rewrite map_length, seq_length. split; [reflexivity|]. destruct ks; [congruence|discriminate].
Qed.
Lemma lagrange_wsum v ks f cs : Forall int64_ok ks -> NoDup ks -> lagrange_at_value v ks = Ok cs -> gisp (length ks) f ->
  wsum cs (map (fun k => f (from_node_index k)) ks) = f v.
Proof.
  intros F N E I. pose proof (lagrange_point_reconstruct v ks f cs F N E I) as H.
  destruct ks as [|k0 ks0]; [discriminate|]. destruct (lagrange_ok v (k0 :: ks0) F N ltac:(discriminate)) as (cs' & E' & L & Nc).
  assert (cs' = cs) as -> by congruence.
  rewrite interpolate_point_wsum in H by (rewrite ?map_length; auto). congruence.
Qed.
Lemma lagrange_fwsum v ks f cs : Forall int64_ok ks -> NoDup ks -> lagrange_at_value v ks = Ok cs -> isp (length ks) f ->
  fwsum cs (map (fun k => f (from_node_index k)) ks) = f v.
Proof.
  intros F N E I. pose proof (lagrange_reconstruct v ks f cs F N E I) as H.
  destruct ks as [|k0 ks0]; [discriminate|]. destruct (lagrange_ok v (k0 :: ks0) F N ltac:(discriminate)) as (cs' & E' & L & Nc).
  assert (cs' = cs) as -> by congruence.
  rewrite interpolate_scalar_wsum in H by (rewrite ?map_length; auto). congruence.
Qed.
Lemma gisp_gev l n : (length l <= n)%nat -> gisp n (gev l).
Proof. intros H. exists l. auto. Qed.

(** ** commitments *)
Lemma c_points_ok c l : c_points c = Ok l <-> is_cm c /\ pts_of c = l.
Proof.
  unfold c_points, is_cm, pts_of. destruct (unwrap c) as [k|k|?|?|]; split; intros H;
    try discriminate H; try (injection H as <-; split; [eauto|reflexivity]); try (destruct H as [_ <-]; reflexivity);
    destruct H as [[[? H]|[? H]] _]; discriminate H.
Qed.
Lemma c_points_pts c : is_cm c -> c_points c = Ok (pts_of c).
Proof. intros H. apply c_points_ok. auto. Qed.
Lemma c_len_ok c n : c_len c = Ok n <-> is_cm c /\ Z.of_nat (length (pts_of c)) = n.
Proof.
  unfold c_len. split.
  - destruct (c_points c) as [l| | |] eqn:E; cbn [bind]; try discriminate. apply c_points_ok in E. destruct E as [I <-]. intros H. injection H as <-. auto.
  - intros [I <-]. rewrite (c_points_pts _ I). reflexivity.
Qed.
End Sums.

Section Transcript.
Context {X : Oracles} (HX : oracles_ok X) {GO : Grp} {GL : GrpLaws GO}.

Lemma bind_inv {A B} (r : res A) (f : A -> res B) b : bind r f = Ok b -> exists a, r = Ok a /\ f a = Ok b.
Proof. destruct r; cbn [bind]; try discriminate. eauto. Qed.
Lemma bind_Ok {A B} (a : A) (f : A -> res B) : bind (Ok a) f = f a.
Proof. reflexivity. Qed.
Lemma guard_inv b : guard b = Ok tt -> b = true.
Proof. destruct b; [reflexivity|discriminate]. Qed.

(** ** what acceptance by PubliclyVerify means *)
Lemma verify_is_inv c t : c_verify_is c t = Ok tt ->
  pts_of c <> [] /\ ((t = ct_simple /\ unwrap c = CSimple (pts_of c)) \/ (t = ct_pedersen /\ unwrap c = CPedersen (pts_of c))).
Proof.
  unfold c_verify_is, c_curve, c_type, c_points, pts_of. destruct (unwrap c) as [l|l|?|?|]; cbn [bind]; try discriminate;
    destruct l; cbn [bind]; try discriminate; unfold guard.
  - destruct (Z.eqb_spec ct_simple t); [|discriminate]. intros _. split; [discriminate|auto].
  - destruct (Z.eqb_spec ct_pedersen t); [|discriminate]. intros _. split; [discriminate|auto].
Qed.
Lemma m_verify_is_inv m t : m_verify_is m t = Ok tt ->
  match t with MTsingle => exists e p pf c, m = MSingle e p pf c | MTpair => exists e p pf c, m = MPair e p pf c end.
Proof. destruct m, t; cbn; try discriminate; intros _; eauto. Qed.
Lemma m_check_validity_inv m n ad d : m_check_validity m n ad d = Ok tt -> m_recipients m = Ok n /\ m_verify_pop m ad d = Ok tt.
Proof.
  unfold m_check_validity. destruct (m_recipients m) as [k| | |]; cbn [bind]; try discriminate.
  destruct (Z.eqb_spec k n) as [->|]; cbn [negb]; [auto|discriminate].
Qed.

Lemma publicly_verify_inv dl op num d n ad : publicly_verify dl op num d n ad = Ok tt ->
  Z.of_nat (length (pts_of (d_cm dl))) = num /\ pts_of (d_cm dl) <> [] /\
  m_recipients (d_ct dl) = Ok n /\ m_verify_pop (d_ct dl) ad d = Ok tt /\
  match op with
  | TRandom => unwrap (d_cm dl) = CPedersen (pts_of (d_cm dl)) /\ (exists e p pf c, d_ct dl = MPair e p pf c) /\ d_proof dl = PNone
  | TReshareUnmasked p => unwrap (d_cm dl) = CSimple (pts_of (d_cm dl)) /\ (exists e p pf c, d_ct dl = MSingle e p pf c) /\
      d_proof dl = PNone /\ unwrap p = CSimple (pts_of p) /\ pts_of p <> [] /\
      (forall l, p = CSimple l -> nth 0 (pts_of (d_cm dl)) gzero = spec_geval l (node_x d))
  | TReshareMasked p => unwrap (d_cm dl) = CSimple (pts_of (d_cm dl)) /\ (exists e p pf c, d_ct dl = MSingle e p pf c) /\
      is_cm p /\ pts_of p <> [] /\
      exists z, d_proof dl = PMasked z /\ eqo_verify z (spec_geval (pts_of p) (node_x d)) (nth 0 (pts_of (d_cm dl)) gzero) ad = Ok tt
  | TTimes l r => unwrap (d_cm dl) = CPedersen (pts_of (d_cm dl)) /\ (exists e p pf c, d_ct dl = MPair e p pf c) /\
      unwrap l = CSimple (pts_of l) /\ pts_of l <> [] /\ unwrap r = CPedersen (pts_of r) /\ pts_of r <> [] /\
      exists z, d_proof dl = PProduct z /\
        prod_verify z (spec_geval (pts_of l) (node_x d)) (spec_geval (pts_of r) (node_x d)) (nth 0 (pts_of (d_cm dl)) gzero) ad = Ok tt
  | TOther => False
  end.
Proof.
  unfold publicly_verify. destruct (c_len (d_cm dl)) as [k| | |] eqn:El; cbn [bind]; try discriminate.
  apply c_len_ok in El. destruct El as [I El].
  destruct (Z.eqb_spec k num) as [->|]; cbn [negb]; [|discriminate].
  unfold c_curve at 1. rewrite (c_points_pts _ I). cbn [bind].
  destruct (pts_of (d_cm dl)) as [|P k] eqn:Ep; [discriminate|]. cbn [bind].
  destruct (m_check_validity (d_ct dl) n ad d) as [[]| | |] eqn:V; cbn [bind]; try discriminate.
  apply m_check_validity_inv in V. destruct V as [V1 V2].
  assert (K : c_constant_term (d_cm dl) = Ok P) by (unfold c_constant_term; rewrite (c_points_pts _ I), Ep; reflexivity).
  intros H. split; [exact El|]. split; [discriminate|]. split; [exact V1|]. split; [exact V2|]. cbn [nth].
  assert (EV : forall p e, c_eval p d = Ok e -> is_cm p /\ pts_of p <> [] /\ e = spec_geval (pts_of p) (node_x d)).
  { intros p e Ee. unfold c_eval in Ee. destruct (c_points p) as [l| | |] eqn:E; cbn [bind] in Ee; try discriminate.
    apply c_points_ok in E. destruct E as [Ip <-]. rewrite eval_points_spec in Ee.
    destruct (pts_of p) as [|Q l] eqn:Eq; [discriminate|]. split; [exact Ip|]. split; [discriminate|congruence]. }
  destruct op as [|p|p|l r|]; destruct (d_proof dl) as [|z|z] eqn:Epf; try discriminate.
  - apply bind_inv in H. destruct H as ([] & E & H).
    apply verify_is_inv in E. destruct E as [_ [[E _]|[_ E]]]; [discriminate|]. rewrite Ep in E. apply m_verify_is_inv in H. auto.
  - apply bind_inv in H. destruct H as ([] & E & H). apply bind_inv in H. destruct H as ([] & E2 & H). apply bind_inv in H. destruct H as ([] & E3 & H).
    apply verify_is_inv in E. destruct E as [_ [[_ E]|[E _]]]; [|discriminate]. rewrite Ep in E.
    apply verify_is_inv in E2. destruct E2 as [N2 [[_ E2]|[E2 _]]]; [|discriminate]. apply m_verify_is_inv in E3.
    split; [exact E|]. split; [exact E3|]. split; [reflexivity|]. split; [exact E2|]. split; [exact N2|].
    intros l ->. apply bind_inv in H. destruct H as (e & E4 & H). rewrite K in H. rewrite bind_Ok in H.
    rewrite eval_points_spec in E4. destruct l as [|Q l]; [discriminate|]. injection E4 as <-. apply guard_inv in H.
    apply geqb_iff in H. symmetry. exact H.
  - apply bind_inv in H. destruct H as ([] & E & H). apply bind_inv in H. destruct H as ([] & E3 & H). apply bind_inv in H. destruct H as (e & E4 & H).
    rewrite K in H. rewrite bind_Ok in H.
    apply verify_is_inv in E. destruct E as [_ [[_ E]|[E _]]]; [|discriminate]. rewrite Ep in E.
    apply m_verify_is_inv in E3. apply EV in E4. destruct E4 as (I4 & N4 & ->).
    split; [exact E|]. split; [exact E3|]. split; [exact I4|]. split; [exact N4|]. exists z. split; [reflexivity|exact H].
  - apply bind_inv in H. destruct H as ([] & E & H). apply bind_inv in H. destruct H as ([] & E3 & H).
    apply bind_inv in H. destruct H as ([] & E1 & H). apply bind_inv in H. destruct H as ([] & E2 & H).
    apply bind_inv in H. destruct H as (e & E4 & H). apply bind_inv in H. destruct H as (e' & E5 & H).
    rewrite K in H. rewrite bind_Ok in H.
    apply verify_is_inv in E. destruct E as [_ [[E _]|[_ E]]]; [discriminate|]. rewrite Ep in E. apply m_verify_is_inv in E3.
    apply verify_is_inv in E1. destruct E1 as [N1 [[_ E1]|[E1 _]]]; [|discriminate].
    apply verify_is_inv in E2. destruct E2 as [N2 [[E2 _]|[_ E2]]]; [discriminate|].
    apply EV in E4. destruct E4 as (_ & _ & ->). apply EV in E5. destruct E5 as (_ & _ & ->).
    split; [exact E|]. split; [exact E3|]. split; [exact E1|]. split; [exact N1|]. split; [exact E2|]. split; [exact N2|].
    exists z. split; [reflexivity|exact H].
Qed.

(** a publicly verified dealing never makes an in-range receiver panic *)
Lemma verified_private dl op num d n ad i sk pk : publicly_verify dl op num d n ad = Ok tt -> 0 <= i < n ->
  private_verify dl sk pk ad d i = Ok tt \/ private_verify dl sk pk ad d i = Err.
Proof.
  intros H Hi. apply publicly_verify_inv in H. destruct H as (L & N & R & V & K).
  destruct (m_decrypt_outcomes HX _ _ ad d i sk pk R) as [_ H]. destruct (H V) as (_ & _ & H1). clear H. destruct (H1 Hi) as (o & E & O). clear H1.
  assert (Q : (exists e p pf c, d_ct dl = MSingle e p pf c) /\ unwrap (d_cm dl) = CSimple (pts_of (d_cm dl)) \/
              (exists e p pf c, d_ct dl = MPair e p pf c) /\ unwrap (d_cm dl) = CPedersen (pts_of (d_cm dl))).
  { destruct op; [right|left|left|right|contradiction]; destruct K as (K1 & K2 & _); auto. }
  unfold private_verify, c_constant_term, m_decrypt_and_check. rewrite E. cbn [bind]. unfold c_points, c_check_opening.
  assert (EP : exists e, eval_points (pts_of (d_cm dl)) i = Ok e) by (rewrite eval_points_spec; destruct (pts_of (d_cm dl)); [congruence|eauto]).
  destruct EP as [e EP].
  destruct Q as [((a & p & pf & c & Ec) & U)|((a & p & pf & c & Ec) & U)]; rewrite Ec in O.
  - destruct O as [v ->]. rewrite U. cbn [bind]. rewrite EP. destruct (pts_of (d_cm dl)) as [|P k]; [congruence|]. cbn [bind].
    destruct (geqb _ _); cbn [bind]; auto.
  - destruct O as (v & w & ->). rewrite U. cbn [bind]. rewrite EP. destruct (pts_of (d_cm dl)) as [|P k]; [congruence|]. cbn [bind].
    destruct (geqb _ _); cbn [bind]; auto.
Qed.

(** ** combination by interpolation *)

Lemma check_lengths_ok ds th : check_lengths ds th = Ok tt <->
  forall kd, In kd ds -> is_cm (d_cm (snd kd)) /\ Z.of_nat (length (dl_pts kd)) = th.
Proof.
  induction ds as [|[k d] ds IH]; cbn [check_lengths].
  - split; [intros _ kd []|reflexivity].
  - split.
    + intros H. apply bind_inv in H. destruct H as (n & E & H). apply c_len_ok in E. destruct E as [I E].
      destruct (Z.eqb_spec n th) as [->|]; cbn [negb] in H; [|discriminate]. intros kd [<-|Hin]; [auto|].
      apply (proj1 IH H). exact Hin.
    + intros H. destruct (H (k, d) (or_introl eq_refl)) as [I E]. cbn [snd] in I.
      assert (c_len (d_cm d) = Ok th) as -> by (apply c_len_ok; auto). cbn [bind]. rewrite Z.eqb_refl. cbn [negb].
      apply IH. intros kd Hin. apply H. right. exact Hin.
Qed.
Lemma nth_or_panic_ok {A} (l : list A) i d : (i < length l)%nat -> nth_or_panic l i = Ok (nth i l d).
Proof. intros H. unfold nth_or_panic. rewrite (nth_error_nth' l d H). reflexivity. Qed.

Definition kind_cm (ty : Z) (l : list G) : commitment :=
  if ty =? ct_simple then CSimple l else if ty =? ct_pedersen then CPedersen l else CNil.

Lemma combine_interp_ok ty th ds : keys_ok ds -> ds <> [] -> 0 <= th -> check_lengths ds th = Ok tt ->
  exists cs pts, lagrange_at_zero (map fst ds) = Ok cs /\ length cs = length ds /\ cs <> [] /\
    combine_interp ty th ds = Ok (CInterp (kind_cm ty pts)) /\ length pts = Z.to_nat th /\
    forall x, gev pts x = wsum cs (map (fun kd => gev (dl_pts kd) x) ds).
Proof.
  intros [F N] Hne Hth Hl. pose proof (proj1 (check_lengths_ok _ _) Hl) as Hc.
  destruct (lagrange_ok fzero (map fst ds) F N) as (cs & E & Lc & Nc); [destruct ds; [congruence|discriminate]|].
  rewrite map_length in Lc.
  exists cs, (map (fun i => wsum cs (map (fun kd => nth i (dl_pts kd) gzero) ds)) (seq 0 (Z.to_nat th))).
  split; [exact E|]. split; [exact Lc|]. split; [exact Nc|]. split; [|split].
  - unfold combine_interp. rewrite (mapM_total _ dl_pts) by (intros kd Hin; apply c_points_pts; apply Hc; exact Hin).
    cbn [bind]. unfold lagrange_at_zero. rewrite E. cbn [bind]. unfold go_make. destruct (Z.ltb_spec th 0); [lia|]. cbn [bind].
    rewrite (mapM_total _ (fun i => wsum cs (map (fun kd => nth i (dl_pts kd) gzero) ds))).
    + reflexivity.
    + intros i Hi. apply in_seq in Hi. rewrite (mapM_total _ (fun l => nth i l gzero)).
      * cbn [bind]. rewrite map_map. apply interpolate_point_wsum; [rewrite map_length; lia|exact Nc].
      * intros l Hin. apply in_map_iff in Hin. destruct Hin as (kd & <- & Hin). apply nth_or_panic_ok. destruct (Hc kd Hin) as [_ L]. lia.
  - rewrite map_length, seq_length. reflexivity.
  - intros x. apply (gev_wsum dl_pts). intros kd Hin. destruct (Hc kd Hin) as [_ L]. lia.
Qed.

(** ** summation *)
Lemma sum_points_ok : forall acc l, length l = length acc ->
  exists r, sum_points acc l = Ok r /\ length r = length acc /\ forall x, gev r x = gadd (gev acc x) (gev l x).
Proof.
  induction acc as [|a acc IH]; intros [|p l] H; cbn [length] in H; try lia; cbn [sum_points].
  - exists []. split; [reflexivity|]. split; [reflexivity|]. intros x. symmetry. apply gadd_0_l.
  - destruct (IH l) as (r & -> & L & E); [lia|]. cbn [bind]. eexists. split; [reflexivity|]. cbn [length gev]. split; [lia|].
    intros x. rewrite E. gring.
Qed.
Lemma sum_dealings_ok n ds : (forall kd, In kd ds -> unwrap (d_cm (snd kd)) = CPedersen (dl_pts kd) /\ length (dl_pts kd) = n) ->
  forall acc, length acc = n -> exists l, sum_dealings acc ds = Ok l /\ length l = n /\
    forall x, gev l x = gadd (gev acc x) (gsum (map (fun kd => gev (dl_pts kd) x) ds)).
Proof.
  induction ds as [|[k d] ds IH]; intros H acc La; cbn [sum_dealings].
  - exists acc. split; [reflexivity|]. split; [exact La|]. intros x. cbn [map]. symmetry. apply gadd_0_r.
  - destruct (H (k, d) (or_introl eq_refl)) as [U L]. unfold dl_pts in U, L. cbn [snd] in U, L.
    assert (c_type (d_cm d) = Ok ct_pedersen) as -> by (unfold c_type; rewrite U; reflexivity). cbn [bind]. rewrite Z.eqb_refl. cbn [negb].
    assert (c_points (d_cm d) = Ok (pts_of (d_cm d))) as -> by (unfold c_points; rewrite U; reflexivity). cbn [bind].
    destruct (sum_points_ok acc (pts_of (d_cm d))) as (r & -> & Lr & Er); [lia|]. cbn [bind].
    destruct (IH (fun kd Hin => H kd (or_intror Hin)) r) as (l & -> & Ll & El); [lia|].
    exists l. split; [reflexivity|]. split; [exact Ll|]. intros x. rewrite El, Er. cbn [map]. rewrite gsum_cons. unfold dl_pts at 2. cbn [snd]. gring.
Qed.
Lemma sum_dealings_inv ds : forall acc l, sum_dealings acc ds = Ok l ->
  forall kd, In kd ds -> unwrap (d_cm (snd kd)) = CPedersen (dl_pts kd).
Proof.
  induction ds as [|[k d] ds IH]; intros acc l H kd; [intros []|]. cbn [sum_dealings] in H.
  apply bind_inv in H. destruct H as (t & E & H). destruct (Z.eqb_spec t ct_pedersen) as [->|]; cbn [negb] in H; [|discriminate].
  apply bind_inv in H. destruct H as (p & E1 & H). apply bind_inv in H. destruct H as (r & E2 & H).
  intros [<-|Hin]; [|apply (IH _ _ H); exact Hin]. cbn [snd]. unfold dl_pts. cbn [snd]. unfold c_type in E. unfold pts_of.
  destruct (unwrap (d_cm d)) as [?|?|?|?|]; try discriminate. reflexivity.
Qed.

(** ** the shape of every accepted transcript *)
Definition interp_pts (ds : list (Z * dealing)) (pts : list G) : Prop :=
  exists cs, lagrange_at_zero (map fst ds) = Ok cs /\ length cs = length ds /\ cs <> [] /\
    forall x, gev pts x = wsum cs (map (fun kd => gev (dl_pts kd) x) ds).
Definition sum_pts (ds : list (Z * dealing)) (pts : list G) : Prop :=
  forall x, gev pts x = gsum (map (fun kd => gev (dl_pts kd) x) ds).
Definition transcript_shape (th : Z) (ds : list (Z * dealing)) (op : operation) (t : transcript) : Prop :=
  exists pts, length pts = Z.to_nat th /\
  match op with
  | TRandom => tr_commitment t = CSum (CPedersen pts) /\ sum_pts ds pts
  | TReshareUnmasked _ | TReshareMasked _ => tr_commitment t = CInterp (CSimple pts) /\ interp_pts ds pts
  | TTimes _ _ => tr_commitment t = CInterp (CPedersen pts) /\ interp_pts ds pts
  | TOther => False
  end.

Lemma lagrange_empty ty th : combine_interp ty th [] = Err.
Proof. reflexivity. Qed.
Lemma gev_repeat n x : gev (repeat gzero n) x = gzero.
Proof. induction n as [|n IH]; cbn [repeat gev]; [reflexivity|]. rewrite IH, smul_gzero. apply gadd_0_l. Qed.
Lemma combine_interp_inv ty th ds c : keys_ok ds -> 0 <= th -> check_lengths ds th = Ok tt -> combine_interp ty th ds = Ok c ->
  exists pts, c = CInterp (kind_cm ty pts) /\ length pts = Z.to_nat th /\ interp_pts ds pts.
Proof.
  intros K Hth L H. destruct ds as [|d0 ds0] eqn:E; [discriminate|]. rewrite <- E in *.
  destruct (combine_interp_ok ty th ds K) as (cs & pts & E1 & E2 & E3 & E4 & E5 & E6); [rewrite E; discriminate|exact Hth|exact L|].
  exists pts. split; [congruence|]. split; [exact E5|]. exists cs. auto.
Qed.
Lemma new_transcript_shape th ds op t : keys_ok ds -> 0 <= th -> op <> TOther -> new_transcript th ds op = Ok t -> transcript_shape th ds op t.
Proof.
  intros K Hth No H. unfold new_transcript in H. apply bind_inv in H. destruct H as ([] & L & H).
  destruct op as [|p|p|l r|]; [| | | |congruence].
  - unfold go_make in H. destruct (Z.ltb_spec th 0); [lia|]. rewrite bind_Ok in H. apply bind_inv in H. destruct H as (l & E & H). injection H as <-.
    pose proof (sum_dealings_inv _ _ _ E) as U.
    destruct (sum_dealings_ok (Z.to_nat th) ds) with (acc := repeat gzero (Z.to_nat th)) as (l' & E' & Ll & El).
    + intros kd Hin. split; [apply U; exact Hin|]. pose proof (proj1 (check_lengths_ok _ _) L kd Hin) as [_ ?]. lia.
    + apply repeat_length.
    + assert (l' = l) as -> by congruence. exists l. split; [exact Ll|]. split; [reflexivity|]. intros x. rewrite El, gev_repeat. apply gadd_0_l.
  - apply bind_inv in H. destruct H as (ty & _ & H). destruct (ty =? ct_simple); cbn [negb] in H; [|discriminate].
    apply bind_inv in H. destruct H as (n & _ & H). destruct (_ <? n); [discriminate|].
    apply bind_inv in H. destruct H as (c & E & H). apply bind_inv in H. destruct H as (a & _ & H). apply bind_inv in H. destruct H as (b & _ & H).
    destruct (geqb a b); [|discriminate]. injection H as <-.
    destruct (combine_interp_inv _ _ _ _ K Hth L E) as (pts & -> & Lp & I). exists pts. split; [exact Lp|]. split; [reflexivity|exact I].
  - apply bind_inv in H. destruct H as (ty & _ & H). destruct (ty =? ct_pedersen); cbn [negb] in H; [|discriminate].
    apply bind_inv in H. destruct H as (n & _ & H). destruct (_ <? n); [discriminate|].
    apply bind_inv in H. destruct H as (c & E & H). injection H as <-.
    destruct (combine_interp_inv _ _ _ _ K Hth L E) as (pts & -> & Lp & I). exists pts. split; [exact Lp|]. split; [reflexivity|exact I].
  - apply bind_inv in H. destruct H as (ty & _ & H). destruct (ty =? ct_simple); cbn [negb] in H; [|discriminate].
    apply bind_inv in H. destruct H as (ty' & _ & H). destruct (ty' =? ct_pedersen); cbn [negb] in H; [|discriminate].
    apply bind_inv in H. destruct H as (nl & _ & H). apply bind_inv in H. destruct H as (nr & _ & H). destruct (_ <? _); [discriminate|].
    apply bind_inv in H. destruct H as (c & E & H). injection H as <-.
    destruct (combine_interp_inv _ _ _ _ K Hth L E) as (pts & -> & Lp & I). exists pts. split; [exact Lp|]. split; [reflexivity|exact I].
Qed.

(** the constant term of an accepted transcript *)
Lemma unmasked_constant th ds p t : new_transcript th ds (TReshareUnmasked p) = Ok t ->
  exists P, c_constant_term p = Ok P /\ tr_constant_term t = Ok P.
Proof.
  intros H. unfold new_transcript in H. apply bind_inv in H. destruct H as ([] & _ & H).
  apply bind_inv in H. destruct H as (ty & _ & H). destruct (ty =? ct_simple); cbn [negb] in H; [|discriminate].
  apply bind_inv in H. destruct H as (n & _ & H). destruct (_ <? n); [discriminate|].
  apply bind_inv in H. destruct H as (c & E & H). apply bind_inv in H. destruct H as (a & Ea & H). apply bind_inv in H. destruct H as (b & Eb & H).
  destruct (geqb a b) eqn:Eg; [|discriminate]. apply geqb_iff in Eg. subst b. injection H as <-. exists a. auto.
Qed.
Lemma interp_constant ds pts f : keys_ok ds -> interp_pts ds pts -> gisp (length ds) f ->
  (forall kd, In kd ds -> nth 0 (dl_pts kd) gzero = f (from_node_index (fst kd))) ->
  nth 0 pts gzero = f fzero.
Proof.
  intros [F N] (cs & E & _ & _ & W) I H. rewrite <- gev_0, W.
  rewrite (map_ext_in _ (fun kd => f (from_node_index (fst kd)))) by (intros kd Hin; rewrite gev_0; apply H; exact Hin).
  rewrite <- (map_map fst (fun k => f (from_node_index k))). apply (lagrange_wsum fzero (map fst ds) f cs F N E).
  rewrite map_length. exact I.
Qed.
Lemma wsum_pedersen_ex {A} (g : A -> G) (f : A -> Fq) l : (forall a, In a l -> exists m, g a = pedersen (f a) m) ->
  forall cs, exists M, wsum cs (map g l) = pedersen (fwsum cs (map f l)) M.
Proof.
  induction l as [|a l IH]; intros H cs; destruct cs as [|c cs]; cbn [map wsum fwsum];
    try (exists fzero; unfold pedersen, mul_points; rewrite !smul_zero; symmetry; apply gadd_0_l).
  destruct (H a (or_introl eq_refl)) as [m E]. destruct (IH (fun a' Hin => H a' (or_intror Hin)) cs) as [M E'].
  exists (fadd (fmul c m) M). rewrite E, E'. unfold pedersen, mul_points. gring.
Qed.
Lemma interp_constant_product ds pts f : keys_ok ds -> interp_pts ds pts -> isp (length ds) f ->
  (forall kd, In kd ds -> exists m, nth 0 (dl_pts kd) gzero = pedersen (f (from_node_index (fst kd))) m) ->
  exists M, nth 0 pts gzero = pedersen (f fzero) M.
Proof.
  intros [F N] (cs & E & _ & _ & W) I H. rewrite <- gev_0, W.
  destruct (wsum_pedersen_ex (fun kd => gev (dl_pts kd) fzero) (fun kd => f (from_node_index (fst kd))) ds) with (cs := cs) as [M EM].
  - intros kd Hin. rewrite gev_0. apply H. exact Hin.
  - exists M. rewrite EM. f_equal.
    rewrite <- (map_map fst (fun k => f (from_node_index k))). apply (lagrange_fwsum fzero (map fst ds) f cs F N E).
    rewrite map_length. exact I.
Qed.
Lemma constant_term_nth c P : c_constant_term c = Ok P -> is_cm c /\ pts_of c <> [] /\ nth 0 (pts_of c) gzero = P.
Proof.
  unfold c_constant_term. intros H. apply bind_inv in H. destruct H as (l & E & H). apply c_points_ok in E. destruct E as [I <-].
  destruct (pts_of c) as [|Q l]; [discriminate|]. injection H as <-. split; [exact I|]. split; [discriminate|reflexivity].
Qed.
Lemma nth_constant_term c : is_cm c -> pts_of c <> [] -> c_constant_term c = Ok (nth 0 (pts_of c) gzero).
Proof. intros I N. unfold c_constant_term. rewrite (c_points_pts _ I). cbn [bind]. destruct (pts_of c); [congruence|reflexivity]. Qed.

(** ** when a transcript is accepted *)
Definition op_ready (ds : list (Z * dealing)) (op : operation) : Prop :=
  match op with
  | TRandom => forall kd, In kd ds -> unwrap (d_cm (snd kd)) = CPedersen (dl_pts kd)
  | TReshareUnmasked p => unwrap p = CSimple (pts_of p) /\ pts_of p <> [] /\ (length (pts_of p) <= length ds)%nat /\
      forall kd, In kd ds -> nth 0 (dl_pts kd) gzero = spec_geval (pts_of p) (node_x (fst kd))
  | TReshareMasked p => unwrap p = CPedersen (pts_of p) /\ (length (pts_of p) <= length ds)%nat
  | TTimes l r => unwrap l = CSimple (pts_of l) /\ unwrap r = CPedersen (pts_of r) /\
      (length (pts_of l) + length (pts_of r) <= length ds + 1)%nat
  | TOther => False
  end.
Lemma new_transcript_ok th ds op : keys_ok ds -> ds <> [] -> 0 < th ->
  (forall kd, In kd ds -> is_cm (d_cm (snd kd)) /\ Z.of_nat (length (dl_pts kd)) = th) -> op_ready ds op ->
  exists t, new_transcript th ds op = Ok t.
Proof.
  intros K Hne Hth Hl R. apply check_lengths_ok in Hl. pose proof (proj1 (check_lengths_ok _ _) Hl) as Hc.
  unfold new_transcript. rewrite Hl, bind_Ok.
  destruct op as [|p|p|l r|]; cbn [op_ready] in R; [| | | |contradiction].
  - unfold go_make. destruct (Z.ltb_spec th 0); [lia|]. rewrite bind_Ok.
    destruct (sum_dealings_ok (Z.to_nat th) ds) with (acc := repeat gzero (Z.to_nat th)) as (l & E & _).
    + intros kd Hin. split; [apply R; exact Hin|]. destruct (Hc kd Hin). lia.
    + apply repeat_length.
    + rewrite E, bind_Ok. eauto.
  - destruct R as (U & Np & Ln & H).
    assert (c_type p = Ok ct_simple) as -> by (unfold c_type; rewrite U; reflexivity). rewrite bind_Ok, Z.eqb_refl. cbn [negb].
    assert (c_len p = Ok (Z.of_nat (length (pts_of p)))) as -> by (apply c_len_ok; split; [left; eauto|reflexivity]). rewrite bind_Ok.
    destruct (Z.ltb_spec (Z.of_nat (length ds)) (Z.of_nat (length (pts_of p)))); [lia|].
    destruct (combine_interp_ok ct_simple th ds K Hne) as (cs & pts & E1 & E2 & E3 & E4 & E5 & E6); [lia|exact Hl|].
    rewrite E4, bind_Ok. rewrite nth_constant_term by (try left; eauto). rewrite bind_Ok.
    assert (Ec : c_constant_term (CInterp (kind_cm ct_simple pts)) = Ok (nth 0 pts gzero)).
    { apply (nth_constant_term (CInterp (kind_cm ct_simple pts))); [left; exists pts; reflexivity|].
      change (pts <> []). intros ->. cbn [length] in E5. lia. }
    rewrite Ec, bind_Ok.
    rewrite (interp_constant ds pts (gev (pts_of p))) by
      (first [exact K | exists cs; auto | apply gisp_gev; exact Ln | intros kd Hin; rewrite <- gev_spec; rewrite node_x_eq; apply H; exact Hin]).
    rewrite gev_0, geqb_refl. eauto.
  - destruct R as (U & Ln).
    assert (c_type p = Ok ct_pedersen) as -> by (unfold c_type; rewrite U; reflexivity). rewrite bind_Ok, Z.eqb_refl. cbn [negb].
    assert (c_len p = Ok (Z.of_nat (length (pts_of p)))) as -> by (apply c_len_ok; split; [right; eauto|reflexivity]). rewrite bind_Ok.
    destruct (Z.ltb_spec (Z.of_nat (length ds)) (Z.of_nat (length (pts_of p)))); [lia|].
    destruct (combine_interp_ok ct_simple th ds K Hne) as (cs & pts & E1 & E2 & E3 & E4 & E5 & E6); [lia|exact Hl|].
    rewrite E4, bind_Ok. eauto.
  - destruct R as (U & U' & Ln).
    assert (c_type l = Ok ct_simple) as -> by (unfold c_type; rewrite U; reflexivity). rewrite bind_Ok, Z.eqb_refl. cbn [negb].
    assert (c_type r = Ok ct_pedersen) as -> by (unfold c_type; rewrite U'; reflexivity). rewrite bind_Ok, Z.eqb_refl. cbn [negb].
    assert (c_len l = Ok (Z.of_nat (length (pts_of l)))) as -> by (apply c_len_ok; split; [left; eauto|reflexivity]). rewrite bind_Ok.
    assert (c_len r = Ok (Z.of_nat (length (pts_of r)))) as -> by (apply c_len_ok; split; [right; eauto|reflexivity]). rewrite bind_Ok.
    match goal with |- context [?a <? ?b] => destruct (Z.ltb_spec a b) end; [lia|].
    destruct (combine_interp_ok ct_pedersen th ds K Hne) as (cs & pts & E1 & E2 & E3 & E4 & E5 & E6); [lia|exact Hl|].
    rewrite E4, bind_Ok. eauto.
Qed.

(** ** openings *)
Definition oval (o : opening) : Fq := match o with OSimple v | OPedersen v _ | OSimplePtr v | OPedersenPtr v _ => v | ONil => fzero end.
Definition omask (o : opening) : Fq := match o with OPedersen _ m | OPedersenPtr _ m => m | _ => fzero end.

Lemma check_true_simple c i o l : unwrap c = CSimple l -> c_check_opening c i o = Ok true ->
  o = OSimple (oval o) /\ l <> [] /\ gev l (from_node_index i) = mul_by_g (oval o).
Proof.
  unfold c_check_opening. intros ->. destruct o; try discriminate. intros H. apply bind_inv in H. destruct H as (e & E & H). injection H as H.
  apply geqb_iff in H. subst e. split; [reflexivity|]. assert (N : l <> []) by (destruct l; discriminate). split; [exact N|].
  rewrite eval_points_gev in E by exact N. cbn [oval]. congruence.
Qed.
Lemma check_true_pedersen c i o l : unwrap c = CPedersen l -> c_check_opening c i o = Ok true ->
  o = OPedersen (oval o) (omask o) /\ l <> [] /\ gev l (from_node_index i) = pedersen (oval o) (omask o).
Proof.
  unfold c_check_opening. intros ->. destruct o; try discriminate. intros H. apply bind_inv in H. destruct H as (e & E & H). injection H as H.
  apply geqb_iff in H. subst e. split; [reflexivity|]. assert (N : l <> []) by (destruct l; discriminate). split; [exact N|].
  rewrite eval_points_gev in E by exact N. cbn [oval omask]. congruence.
Qed.
Lemma check_intro_simple c i l v : unwrap c = CSimple l -> l <> [] -> gev l (from_node_index i) = mul_by_g v ->
  c_check_opening c i (OSimple v) = Ok true.
Proof. intros U N E. unfold c_check_opening. rewrite U, eval_points_gev by exact N. rewrite bind_Ok, E, geqb_refl. reflexivity. Qed.
Lemma check_intro_pedersen c i l v m : unwrap c = CPedersen l -> l <> [] -> gev l (from_node_index i) = pedersen v m ->
  c_check_opening c i (OPedersen v m) = Ok true.
Proof. intros U N E. unfold c_check_opening. rewrite U, eval_points_gev by exact N. rewrite bind_Ok, E, geqb_refl. reflexivity. Qed.
Lemma return_ok c i o o' : c_return_if_consistent c i o = Ok o' -> o' = o /\ c_check_opening c i o = Ok true.
Proof.
  unfold c_return_if_consistent. intros H. apply bind_inv in H. destruct H as ([|] & E & H); [|discriminate]. injection H as <-. auto.
Qed.
Lemma return_consistent c i o : c_check_opening c i o = Ok true -> c_return_if_consistent c i o = Ok o.
Proof. unfold c_return_if_consistent. intros ->. reflexivity. Qed.

Lemma collect_simple_ok os : (forall ko, In ko os -> snd ko = OSimple (oval (snd ko))) ->
  collect_simple os = Ok (map (fun ko => (fst ko, oval (snd ko))) os).
Proof.
  induction os as [|[k o] os IH]; intros H; [reflexivity|]. cbn [collect_simple].
  pose proof (H (k, o) (or_introl eq_refl)) as E. cbn [snd] in E. rewrite E, IH by (intros ko Hin; apply H; right; exact Hin).
  rewrite bind_Ok. reflexivity.
Qed.
Lemma collect_pedersen_ok os : (forall ko, In ko os -> snd ko = OPedersen (oval (snd ko)) (omask (snd ko))) ->
  collect_pedersen os = Ok (map (fun ko => (fst ko, (oval (snd ko), omask (snd ko)))) os).
Proof.
  induction os as [|[k o] os IH]; intros H; [reflexivity|]. cbn [collect_pedersen].
  pose proof (H (k, o) (or_introl eq_refl)) as E. cbn [snd] in E. rewrite E, IH by (intros ko Hin; apply H; right; exact Hin).
  rewrite bind_Ok. reflexivity.
Qed.

(** ** ReconstructShareFromOpenings *)
Lemma reconstruct_sound d os ix o : reconstruct_share d os ix = Ok o -> c_check_opening (d_cm d) ix o = Ok true.
Proof.
  unfold reconstruct_share. intros H. apply bind_inv in H. destruct H as (n & _ & H). destruct (_ <? n); [discriminate|].
  apply bind_inv in H. destruct H as ([] & _ & H). cbv zeta in H. apply bind_inv in H. destruct H as (o' & _ & H).
  apply return_ok in H. destruct H as [-> H]. exact H.
Qed.
Lemma reconstruct_few d os ix n : c_len (d_cm d) = Ok n -> Z.of_nat (length os) < n -> reconstruct_share d os ix = Err.
Proof. intros E H. unfold reconstruct_share. rewrite E, bind_Ok. destruct (Z.ltb_spec (Z.of_nat (length os)) n); [reflexivity|lia]. Qed.
Lemma reconstruct_ok d os ix : keys_ok os -> (forall ko, In ko os -> c_check_opening (d_cm d) (fst ko) (snd ko) = Ok true) ->
  (d_cm d = CSimple (pts_of (d_cm d)) \/ d_cm d = CPedersen (pts_of (d_cm d))) -> pts_of (d_cm d) <> [] ->
  (length (pts_of (d_cm d)) <= length os)%nat -> exists o, reconstruct_share d os ix = Ok o.
Proof.
  intros [F N] H U Nl L.
  assert (I : is_cm (d_cm d)) by (destruct U as [-> | ->]; [left|right]; eexists; reflexivity).
  unfold reconstruct_share.
  assert (c_len (d_cm d) = Ok (Z.of_nat (length (pts_of (d_cm d))))) as -> by (apply c_len_ok; auto). rewrite bind_Ok.
  destruct (Z.ltb_spec (Z.of_nat (length os)) (Z.of_nat (length (pts_of (d_cm d))))); [lia|].
  unfold c_curve. rewrite (c_points_pts _ I), bind_Ok. set (l := pts_of (d_cm d)) in *. clearbody l.
  assert (forall A (x y : res A), match l with [] => x | _ => y end = y) as -> by (destruct l; [congruence|reflexivity]). rewrite bind_Ok. cbv zeta.
  destruct (lagrange_ok (from_node_index ix) (map fst os) F N) as (cs & E & Lc & Nc).
  { destruct os; [|discriminate]. destruct l; [congruence|cbn [length] in L; lia]. }
  rewrite map_length in Lc.
  assert (GI : gisp (length (map fst os)) (gev l)) by (apply gisp_gev; rewrite map_length; exact L).
  pose proof (lagrange_wsum (from_node_index ix) (map fst os) (gev l) cs F N E GI) as W. rewrite map_map in W.
  destruct U as [U|U]; rewrite U.
  - rewrite collect_simple_ok by (intros ko Hin; apply (check_true_simple (d_cm d) (fst ko) _ l); [rewrite U; reflexivity|apply H; exact Hin]).
    rewrite bind_Ok, !map_map. cbn [fst snd].
    change (map (fun x : Z * opening => fst x) os) with (map (@fst Z opening) os). rewrite E, bind_Ok.
    rewrite interpolate_scalar_wsum by (rewrite ?map_length; auto). rewrite !bind_Ok.
    eexists. apply return_consistent. apply (check_intro_simple _ _ l); [reflexivity|exact Nl|]. rewrite <- W.
    rewrite (map_ext_in _ (fun ko => smul (oval (snd ko)) genG)).
    + apply (wsum_scal (fun ko => oval (snd ko))).
    + intros ko Hin. apply (check_true_simple (d_cm d) (fst ko) _ l); [rewrite U; reflexivity|apply H; exact Hin].
  - rewrite collect_pedersen_ok by (intros ko Hin; apply (check_true_pedersen (d_cm d) (fst ko) _ l); [rewrite U; reflexivity|apply H; exact Hin]).
    rewrite bind_Ok, !map_map. cbn [fst snd].
    change (map (fun x : Z * opening => fst x) os) with (map (@fst Z opening) os). rewrite E, bind_Ok.
    rewrite !interpolate_scalar_wsum by (rewrite ?map_length; auto). rewrite !bind_Ok.
    eexists. apply return_consistent. apply (check_intro_pedersen _ _ l); [reflexivity|exact Nl|]. rewrite <- W.
    rewrite (map_ext_in _ (fun ko => pedersen (oval (snd ko)) (omask (snd ko)))).
    + apply (wsum_pedersen (fun ko => oval (snd ko)) (fun ko => omask (snd ko))).
    + intros ko Hin. apply (check_true_pedersen (d_cm d) (fst ko) _ l); [rewrite U; reflexivity|apply H; exact Hin].
Qed.

(** ** CombineOpenings *)
Lemma combine_sound ixs os c i o : combine_openings ixs os c i = Ok o -> c_check_opening c i o = Ok true.
Proof. unfold combine_openings. intros H. apply bind_inv in H. destruct H as (o' & _ & H). apply return_ok in H. destruct H as [-> H]. exact H. Qed.

Lemma zip_simple_ok : forall ixs os, length os = length ixs -> (forall o, In o os -> o = OSimple (oval o)) ->
  exists vs, zip_simple ixs os = Ok vs /\ map fst vs = ixs /\ map snd vs = map oval os.
Proof.
  induction ixs as [|x ixs IH]; intros [|o os] L H; cbn [length] in L; try lia; cbn [zip_simple].
  - exists []. auto.
  - rewrite (H o (or_introl eq_refl)). destruct (IH os) as (vs & -> & E1 & E2); [lia|intros o' Hin; apply H; right; exact Hin|].
    rewrite bind_Ok. eexists. split; [reflexivity|]. cbn [map fst snd oval]. rewrite E1, E2. auto.
Qed.
Lemma zip_pedersen_ok : forall ixs os, length os = length ixs -> (forall o, In o os -> o = OPedersen (oval o) (omask o)) ->
  exists vs, zip_pedersen ixs os = Ok vs /\ map fst vs = ixs /\ map (fun e => fst (snd e)) vs = map oval os /\ map (fun e => snd (snd e)) vs = map omask os.
Proof.
  induction ixs as [|x ixs IH]; intros [|o os] L H; cbn [length] in L; try lia; cbn [zip_pedersen].
  - exists []. auto.
  - rewrite (H o (or_introl eq_refl)). destruct (IH os) as (vs & -> & E1 & E2 & E3); [lia|intros o' Hin; apply H; right; exact Hin|].
    rewrite bind_Ok. eexists. split; [reflexivity|]. cbn [map fst snd oval omask]. rewrite E1, E2, E3. auto.
Qed.
Lemma sum_pedersen_ok : forall os v m, (forall o, In o os -> o = OPedersen (oval o) (omask o)) ->
  exists v' m', sum_pedersen os v m = Ok (OPedersen v' m') /\
    pedersen v' m' = gadd (pedersen v m) (gsum (map (fun o => pedersen (oval o) (omask o)) os)).
Proof.
  induction os as [|o os IH]; intros v m H; cbn [sum_pedersen].
  - exists v, m. split; [reflexivity|]. symmetry. apply gadd_0_r.
  - rewrite (H o (or_introl eq_refl)). destruct (IH (fadd v (oval o)) (fadd m (omask o))) as (v' & m' & -> & E); [intros o' Hin; apply H; right; exact Hin|].
    exists v', m'. split; [reflexivity|]. rewrite E. cbn [map oval omask]. rewrite gsum_cons. unfold pedersen, mul_points. gring.
Qed.


Lemma opens_all_simple ds os i : (forall kd, In kd ds -> unwrap (d_cm (snd kd)) = CSimple (dl_pts kd)) -> opens_all ds os i ->
  length os = length ds /\ (forall o, In o os -> o = OSimple (oval o)) /\
  map (fun kd => gev (dl_pts kd) (from_node_index i)) ds = map (fun o => smul (oval o) genG) os.
Proof.
  intros U H. induction H as [|kd o ds os Hk H IH]; cbn [length map]; [split; [reflexivity|split; [intros o []|reflexivity]]|].
  destruct IH as (L & S & E); [intros kd' Hin; apply U; right; exact Hin|].
  destruct (check_true_simple _ _ _ _ (U kd (or_introl eq_refl)) Hk) as (Eo & _ & Eg).
  split; [lia|]. split; [intros o' [<-|Hin]; [exact Eo|apply S; exact Hin]|]. rewrite E, Eg. reflexivity.
Qed.
Lemma opens_all_pedersen ds os i : (forall kd, In kd ds -> unwrap (d_cm (snd kd)) = CPedersen (dl_pts kd)) -> opens_all ds os i ->
  length os = length ds /\ (forall o, In o os -> o = OPedersen (oval o) (omask o)) /\
  map (fun kd => gev (dl_pts kd) (from_node_index i)) ds = map (fun o => pedersen (oval o) (omask o)) os.
Proof.
  intros U H. induction H as [|kd o ds os Hk H IH]; cbn [length map]; [split; [reflexivity|split; [intros o []|reflexivity]]|].
  destruct IH as (L & S & E); [intros kd' Hin; apply U; right; exact Hin|].
  destruct (check_true_pedersen _ _ _ _ (U kd (or_introl eq_refl)) Hk) as (Eo & _ & Eg).
  split; [lia|]. split; [intros o' [<-|Hin]; [exact Eo|apply S; exact Hin]|]. rewrite E, Eg. reflexivity.
Qed.

Lemma combine_complete th ds op t os i : keys_ok ds -> 0 < th -> op <> TOther -> new_transcript th ds op = Ok t ->
  (forall kd, In kd ds -> kind_ok op (d_cm (snd kd))) -> opens_all ds os i ->
  exists o, combine_openings (map fst ds) os (tr_commitment t) i = Ok o.
Proof.
  intros K Hth No Ht Hk Ho. apply new_transcript_shape in Ht; [|assumption|lia|assumption].
  destruct Ht as (pts & Lp & Sh). assert (Np : pts <> []) by (intros ->; cbn [length] in Lp; lia).
  assert (IS : op_single op = true -> interp_pts ds pts -> tr_commitment t = CInterp (CSimple pts) ->
    exists o, combine_openings (map fst ds) os (tr_commitment t) i = Ok o).
  { intros Os (cs & E & Lc & Nc & W) ->. unfold kind_ok in Hk. rewrite Os in Hk.
    destruct (opens_all_simple ds os i Hk Ho) as (Lo & So & Eo). unfold combine_openings.
    destruct (zip_simple_ok (map fst ds) os) as (vs & -> & V1 & V2); [rewrite map_length; exact Lo|exact So|].
    rewrite bind_Ok, V1, V2, E, bind_Ok. rewrite interpolate_scalar_wsum by (rewrite ?map_length; try exact Nc; lia). rewrite !bind_Ok.
    eexists. apply return_consistent. apply (check_intro_simple _ _ pts); [reflexivity|exact Np|].
    rewrite W, Eo. apply (wsum_scal oval). }
  assert (IP : op_single op = false -> interp_pts ds pts -> tr_commitment t = CInterp (CPedersen pts) ->
    exists o, combine_openings (map fst ds) os (tr_commitment t) i = Ok o).
  { intros Os (cs & E & Lc & Nc & W) ->. unfold kind_ok in Hk. rewrite Os in Hk.
    destruct (opens_all_pedersen ds os i Hk Ho) as (Lo & So & Eo). unfold combine_openings.
    destruct (zip_pedersen_ok (map fst ds) os) as (vs & -> & V1 & V2 & V3); [rewrite map_length; exact Lo|exact So|].
    rewrite bind_Ok, V1, V2, V3, E, bind_Ok. rewrite !interpolate_scalar_wsum by (rewrite ?map_length; try exact Nc; lia). rewrite !bind_Ok.
    eexists. apply return_consistent. apply (check_intro_pedersen _ _ pts); [reflexivity|exact Np|].
    rewrite W, Eo. apply (wsum_pedersen oval omask). }
  destruct op as [|p|p|l r|]; [|destruct Sh as [E I]; apply IS; auto|destruct Sh as [E I]; apply IS; auto|destruct Sh as [E I]; apply IP; auto|congruence].
  destruct Sh as [-> W]. destruct (opens_all_pedersen ds os i Hk Ho) as (Lo & So & Eo). unfold combine_openings.
  destruct (sum_pedersen_ok os fzero fzero So) as (v & m & -> & E). rewrite bind_Ok.
  eexists. apply return_consistent. apply (check_intro_pedersen _ _ pts); [reflexivity|exact Np|].
  rewrite (W (from_node_index i)), Eo, E. unfold pedersen at 2, mul_points. gring.
Qed.

(** the two ways a node computes its opening *)
Lemma from_dealings_sound ds c ad i sk pk o : from_dealings ds c ad i sk pk = Ok o -> c_check_opening c i o = Ok true.
Proof. unfold from_dealings. intros H. apply bind_inv in H. destruct H as (os & _ & H). apply combine_sound in H. exact H. Qed.
Lemma from_dealings_and_openings_sound ds pr c ad i sk pk o :
  from_dealings_and_openings ds pr c ad i sk pk = Ok o -> c_check_opening c i o = Ok true.
Proof. unfold from_dealings_and_openings. intros H. apply bind_inv in H. destruct H as (os & _ & H). apply combine_sound in H. exact H. Qed.

Lemma decrypt_and_check_sound m c ad d i sk pk o : m_decrypt_and_check m c ad d i sk pk = Ok o -> c_check_opening c i o = Ok true.
Proof.
  unfold m_decrypt_and_check. intros H. apply bind_inv in H. destruct H as (o' & _ & H). apply bind_inv in H. destruct H as ([|] & E & H); [|discriminate].
  injection H as ->. exact E.
Qed.
Lemma private_verify_inv dl sk pk ad d i : private_verify dl sk pk ad d i = Ok tt ->
  exists o, m_decrypt_and_check (d_ct dl) (d_cm dl) ad d i sk pk = Ok o.
Proof.
  unfold private_verify. intros H. apply bind_inv in H. destruct H as (P & _ & H). apply bind_inv in H. destruct H as (o & E & _). eauto.
Qed.
Lemma mapM_forall2 {A B} (f : A -> res B) (R : A -> B -> Prop) l : (forall a, In a l -> exists b, f a = Ok b /\ R a b) ->
  exists bs, mapM f l = Ok bs /\ Forall2 R l bs.
Proof.
  induction l as [|a l IH]; intros H; [exists []; split; [reflexivity|constructor]|]. cbn [mapM].
  destruct (H a (or_introl eq_refl)) as (b & -> & Hb). destruct IH as (bs & -> & Hbs); [intros a' Hin; apply H; right; exact Hin|].
  exists (b :: bs). split; [reflexivity|constructor; assumption].
Qed.
Lemma from_dealings_complete th ds op t ad i sk pk : keys_ok ds -> 0 < th -> op <> TOther -> new_transcript th ds op = Ok t ->
  (forall kd, In kd ds -> kind_ok op (d_cm (snd kd)) /\ private_verify (snd kd) sk pk ad (fst kd) i = Ok tt) ->
  exists o, from_dealings ds (tr_commitment t) ad i sk pk = Ok o.
Proof.
  intros K Hth No Ht H. unfold from_dealings.
  destruct (mapM_forall2 (fun kd => m_decrypt_and_check (d_ct (snd kd)) (d_cm (snd kd)) ad (fst kd) i sk pk)
    (fun kd o => c_check_opening (d_cm (snd kd)) i o = Ok true) ds) as (os & -> & Ho).
  - intros kd Hin. destruct (H kd Hin) as [_ V]. apply private_verify_inv in V. destruct V as [o E]. exists o. split; [exact E|].
    apply decrypt_and_check_sound in E. exact E.
  - rewrite bind_Ok. apply (combine_complete th ds op); auto. intros kd Hin. apply H. exact Hin.
Qed.
Lemma from_dealings_and_openings_complete th ds pr op t ad i sk pk : keys_ok ds -> 0 < th -> op <> TOther -> new_transcript th ds op = Ok t ->
  (forall kd, In kd ds -> kind_ok op (d_cm (snd kd)) /\
     match zlookup (fst kd) pr with
     | None => private_verify (snd kd) sk pk ad (fst kd) i = Ok tt
     | Some os => (exists l, d_cm (snd kd) = CSimple l \/ d_cm (snd kd) = CPedersen l) /\ keys_ok os /\ th <= Z.of_nat (length os) /\
         forall ko, In ko os -> c_check_opening (d_cm (snd kd)) (fst ko) (snd ko) = Ok true
     end) ->
  exists o, from_dealings_and_openings ds pr (tr_commitment t) ad i sk pk = Ok o.
Proof.
  intros K Hth No Ht H. unfold from_dealings_and_openings.
  assert (L : check_lengths ds th = Ok tt) by (unfold new_transcript in Ht; apply bind_inv in Ht; destruct Ht as ([] & L & _); exact L).
  destruct (mapM_forall2 (fun kd => match zlookup (fst kd) pr with
      | Some shares => reconstruct_share (snd kd) shares i
      | None => m_decrypt_and_check (d_ct (snd kd)) (d_cm (snd kd)) ad (fst kd) i sk pk end)
    (fun kd o => c_check_opening (d_cm (snd kd)) i o = Ok true) ds) as (os & -> & Ho).
  - intros kd Hin. destruct (H kd Hin) as [_ V]. destruct (zlookup (fst kd) pr) as [shares|].
    + destruct V as ((l & U) & Ks & Ln & Hs). destruct (proj1 (check_lengths_ok _ _) L kd Hin) as [_ Ll]. unfold dl_pts in Ll.
      destruct (reconstruct_ok (snd kd) shares i Ks Hs) as (o & E).
      * destruct U as [-> | ->]; auto.
      * intros E. rewrite E in Ll. cbn [length] in Ll. lia.
      * lia.
      * exists o. split; [exact E|]. apply reconstruct_sound in E. exact E.
    + apply private_verify_inv in V. destruct V as [o E]. exists o. split; [exact E|]. apply decrypt_and_check_sound in E. exact E.
  - rewrite bind_Ok. apply (combine_complete th ds op); auto. intros kd Hin. apply H. exact Hin.
Qed.
End Transcript.
