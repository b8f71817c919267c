From Coq Require Import ZArith Lia Bool String List Ring Field.
From Verif Require Import Base BaseFacts Zmod Fields ModelScalar ProofScalar ModelXmd ModelRo ModelPoly ModelGroup
  SpecPoly ProofPoly ProofLagrange GroupFacts SpecGroup ModelCommit ProofRo.
Import ListNotations.
Open Scope Z_scope.

Section P.
Context {GO : Grp} {GL : GrpLaws GO}.

Lemma node_x_eq i : from_node_index i = node_x i.
Proof.
  apply fe_eq. rewrite from_node_index_val. unfold node_x. rewrite fv_of_Z.
  pose proof (Z.mod_pos_bound (i + 1) (2^64) eq_refl). rewrite (Z.mod_small _ q); [reflexivity|]. unfold q. lia.
Qed.

(** ** MulByNodeIndex *)
Lemma node_loop_spec s p : 0 <= s -> forall n,
  node_loop s n p (smul (of_Z q (s / 2 ^ Z.of_nat n)) p) = smul (of_Z q s) p.
Proof.
  intros Hs. induction n as [|n IH]; cbn [node_loop].
  - change (2 ^ Z.of_nat 0) with 1. rewrite Z.div_1_r. reflexivity.
  - rewrite Z.shiftr_div_pow2 by lia. set (k := s / 2 ^ Z.of_nat n) in *.
    assert (E : s / 2 ^ Z.of_nat (S n) = k / 2).
    { unfold k. rewrite Nat2Z.inj_succ, Z.pow_succ_r, Z.mul_comm, <- Z.div_div by lia. reflexivity. }
    rewrite E. rewrite <- IH. f_equal.
    assert (H : smul (of_Z q k) p =
       if Z.odd k then gadd (gdbl (smul (of_Z q (k / 2)) p)) p else gdbl (smul (of_Z q (k / 2)) p)).
    { unfold gdbl. rewrite <- smul_add, <- of_Z_add.
      pose proof (Z.div_mod k 2 ltac:(lia)) as D. rewrite Zmod_odd in D.
      destruct (Z.odd k).
      - rewrite <- (smul_1 p) at 3. rewrite <- smul_add. unfold fone. rewrite <- of_Z_add. do 2 f_equal. lia.
      - do 2 f_equal. lia. }
    rewrite H. destruct (Z.odd k); reflexivity.
Qed.

Lemma u64_i64 i : u64 (i64 (i + 1)) = (i + 1) mod 2^64.
Proof.
  unfold u64, i64. rewrite Zminus_mod, Zmod_mod, <- Zminus_mod. f_equal. lia.
Qed.

Lemma mul_by_node_index_spec p i : mul_by_node_index p i = smul (from_node_index i) p.
Proof.
  unfold mul_by_node_index. rewrite u64_i64, node_x_eq. unfold node_x.
  pose proof (Z.mod_pos_bound (i + 1) (2^64) eq_refl) as B. set (s := (i + 1) mod 2^64) in *. clearbody s.
  set (n := Z.to_nat (if s =? 0 then 0 else Z.log2 s + 1)).
  rewrite <- (node_loop_spec s p ltac:(lia) n). f_equal.
  assert (s / 2 ^ Z.of_nat n = 0) as ->.
  { apply Z.div_small. split; [lia|]. unfold n. destruct (Z.eqb_spec s 0).
    - subst. reflexivity.
    - pose proof (Z.log2_spec s ltac:(lia)). pose proof (Z.log2_nonneg s).
      rewrite Z2Nat.id by lia. replace (Z.log2 s + 1) with (Z.succ (Z.log2 s)) by lia. lia. }
  symmetry. apply smul_zero.
Qed.

(** ** evaluation of point polynomials *)
Fixpoint gev (l : list G) (x : Fq) : G :=
  match l with [] => gzero | P :: l => gadd P (smul x (gev l x)) end.

Lemma gsum_map_smul {A} (f : A -> G) x l : gsum (map (fun a => smul x (f a)) l) = smul x (gsum (map f l)).
Proof.
  induction l as [|a l IH]; cbn [map gsum fold_right]; [symmetry; apply smul_gzero|].
  fold (gsum (map (fun a => smul x (f a)) l)). rewrite IH, smul_gadd. reflexivity.
Qed.
Lemma gsum_cons a l : gsum (a :: l) = gadd a (gsum l). Proof. reflexivity. Qed.
Lemma gsum_map_ext {A} (f g : A -> G) l : (forall a, In a l -> f a = g a) -> gsum (map f l) = gsum (map g l).
Proof. intros H. f_equal. apply map_ext_in. exact H. Qed.
Lemma gsum_map_add {A} (f g : A -> G) l :
  gsum (map (fun a => gadd (f a) (g a)) l) = gadd (gsum (map f l)) (gsum (map g l)).
Proof.
  induction l as [|a l IH]; cbn [map]; rewrite ?gsum_cons.
  - symmetry. apply gadd_0_l.
  - rewrite IH. gring.
Qed.
Lemma gsum_map_scal {A} (f : A -> Fq) P l : gsum (map (fun a => smul (f a) P) l) = smul (fsum (map f l)) P.
Proof.
  induction l as [|a l IH]; cbn [map].
  - symmetry. apply smul_zero.
  - rewrite gsum_cons, fsum_cons, IH, smul_add. reflexivity.
Qed.

Lemma gev_spec l x : spec_geval l x = gev l x.
Proof.
  unfold spec_geval. induction l as [|P l IH]; [reflexivity|].
  cbn [length seq map gev]. rewrite gsum_cons. cbn [nth]. f_equal.
  - change (Z.of_nat 0) with 0. rewrite fpow_0. apply smul_1.
  - rewrite <- IH, <- seq_shift, map_map, <- gsum_map_smul. apply gsum_map_ext. intros i _. cbn [nth].
    rewrite Nat2Z.inj_succ, fpow_succ by lia. apply smul_mul.
Qed.

Lemma gev_app l1 l2 x : gev (l1 ++ l2) x = gadd (gev l1 x) (smul (fpow x (Z.of_nat (length l1))) (gev l2 x)).
Proof.
  induction l1 as [|P l1 IH]; cbn [app gev length].
  - change (Z.of_nat 0) with 0. rewrite fpow_0, smul_1, gadd_0_l. reflexivity.
  - rewrite IH, Nat2Z.inj_succ, fpow_succ by lia. gring.
Qed.

Lemma eval_points_gev l i : l <> [] -> eval_points l i = Ok (gev l (from_node_index i)).
Proof.
  intros H. unfold eval_points. destruct l as [|P0 l0]; [congruence|].
  set (l := P0 :: l0). clearbody l. f_equal. set (x := from_node_index i).
  enough (E : forall a, fold_left (fun acc pt => gadd (mul_by_node_index acc i) pt) (rev l) a
     = gadd (gev l x) (smul (fpow x (Z.of_nat (length l))) a)).
  { rewrite E, smul_gzero. apply gadd_0_r. }
  clear H. induction l as [|P l IH]; intros a; cbn [rev gev length].
  - cbn [fold_left]. change (Z.of_nat 0) with 0. rewrite fpow_0, smul_1, gadd_0_l. reflexivity.
  - rewrite fold_left_app, IH. cbn [fold_left]. rewrite mul_by_node_index_spec. fold x.
    rewrite Nat2Z.inj_succ, fpow_succ by lia. gring.
Qed.
Lemma eval_points_spec l i : eval_points l i = match l with [] => Panic | _ => Ok (spec_geval l (node_x i)) end.
Proof.
  destruct l as [|P l]; [reflexivity|]. rewrite eval_points_gev by discriminate.
  rewrite gev_spec, node_x_eq. reflexivity.
Qed.

(** evaluation depends only on the points as a zero-padded sequence *)
Lemma gev_ext : forall l1 l2 x, (forall i, nth i l1 gzero = nth i l2 gzero) -> gev l1 x = gev l2 x.
Proof.
  assert (Z0 : forall l x, (forall i, nth i l gzero = gzero) -> gev l x = gzero).
  { induction l as [|P l IH]; intros x H; [reflexivity|]. cbn [gev].
    rewrite (IH x) by (intros i; apply (H (S i))). pose proof (H 0%nat) as H0. cbn in H0. rewrite H0, smul_gzero.
    apply gadd_0_l. }
  induction l1 as [|P l1 IH]; intros [|Q l2] x H; [reflexivity| | |].
  - symmetry. apply Z0. intros i. specialize (H i). rewrite <- H. destruct i; reflexivity.
  - apply Z0. intros i. specialize (H i). rewrite H. destruct i; reflexivity.
  - cbn [gev]. pose proof (H 0%nat) as H0. cbn in H0. subst Q. rewrite (IH l2); [reflexivity|].
    intros i. apply (H (S i)).
Qed.

Lemma gev_scal (po : list Fq) P x : gev (map (fun c => smul c P) po) x = smul (pev po x) P.
Proof.
  induction po as [|c po IH]; cbn [map gev pev]; [symmetry; apply smul_zero|]. rewrite IH. gring.
Qed.
Lemma gev_add l1 l2 x : length l1 = length l2 ->
  gev (map (fun ab => gadd (fst ab) (snd ab)) (combine l1 l2)) x = gadd (gev l1 x) (gev l2 x).
Proof.
  revert l2. induction l1 as [|a l1 IH]; intros [|b l2] H; cbn [length] in H; try lia; cbn [combine map gev fst snd].
  - symmetry. apply gadd_0_l.
  - rewrite IH by lia. gring.
Qed.

Lemma nth_map_smul (po : list Fq) P i : nth i (map (fun c => smul c P) po) gzero = smul (nth i po fzero) P.
Proof.
  rewrite <- (smul_zero P) at 1. rewrite (map_nth (fun c => smul c P)). reflexivity.
Qed.

Lemma commits_gev l po x : commits l po -> gev l x = smul (pev po x) genG.
Proof.
  intros H. rewrite <- gev_scal. apply gev_ext. intros i. rewrite nth_map_smul. apply H.
Qed.

Definition pad (n : nat) (l : list Fq) : list Fq := map (fun i => nth i l fzero) (seq 0 n).
Lemma pad_length n l : length (pad n l) = n. Proof. unfold pad. rewrite map_length, seq_length. reflexivity. Qed.
Lemma pad_same n l : coeffs_below n l -> spec_same (pad n l) l.
Proof.
  intros H i. destruct (Nat.lt_ge_cases i n).
  - unfold pad. rewrite nth_map_seq by assumption. reflexivity.
  - rewrite nth_overflow by (rewrite ?pad_length; lia). symmetry. apply H. assumption.
Qed.
Lemma coeffs_below_length n l : (length l <= n)%nat -> coeffs_below n l.
Proof. intros H i Hi. apply nth_overflow. lia. Qed.

Lemma commits2_gev l po mo x : commits2 l po mo -> gev l x = pedersen (pev po x) (pev mo x).
Proof.
  intros H. unfold pedersen, mul_points. set (n := Nat.max (length po) (length mo)).
  assert (Hp : coeffs_below n po) by (apply coeffs_below_length; unfold n; lia).
  assert (Hm : coeffs_below n mo) by (apply coeffs_below_length; unfold n; lia).
  rewrite <- (pev_ext (pad n po) po), <- (pev_ext (pad n mo) mo) by (apply pad_same; assumption).
  rewrite <- !gev_scal, <- gev_add by (rewrite !map_length, !pad_length; reflexivity).
  apply gev_ext. intros i. rewrite H.
  assert (Ln : length (combine (map (fun c => smul c genG) (pad n po)) (map (fun c => smul c genH) (pad n mo)))
    = n) by (rewrite combine_length, !map_length, !pad_length; lia).
  destruct (Nat.lt_ge_cases i n) as [Hi|Hi].
  - rewrite (nth_indep _ gzero (gadd (fst (gzero, gzero)) (snd (gzero, gzero)))) by (rewrite map_length, Ln; assumption).
    rewrite (map_nth (fun ab : G * G => gadd (fst ab) (snd ab))).
    rewrite combine_nth by (rewrite !map_length, !pad_length; reflexivity). cbn [fst snd].
    rewrite !nth_map_smul. f_equal; f_equal; symmetry; apply pad_same; assumption.
  - rewrite Hp, Hm, !smul_zero, gadd_0_l by assumption.
    rewrite nth_overflow by (rewrite ?map_length, ?Ln; lia). reflexivity.
Qed.

(** ** Lagrange in the exponent *)
Lemma isp_pow n k : (k < n)%nat -> isp n (fun v => fpow v (Z.of_nat k)).
Proof.
  intros H. apply (isp_mono (S k)); [lia|]. clear H. induction k as [|k IH].
  - apply (isp_ext _ (fun _ => fone)); [intros v; change (Z.of_nat 0) with 0; rewrite fpow_0; reflexivity|].
    apply isp_const. lia.
  - apply (isp_ext _ (fun v => fmul (pev [fzero; fone] v) (fpow v (Z.of_nat k)))).
    + intros v. rewrite Nat2Z.inj_succ, fpow_succ by lia. cbn [pev]. ring.
    + replace (S (S k)) with (2 + S k - 1)%nat by lia.
      apply isp_mul; [apply isp_pev; cbn; lia|exact IH].
Qed.

Lemma lagrange_gsum xs v : NoDup xs -> forall l k, (k + length l <= length xs)%nat ->
  gsum (map (fun i => smul (fmul (fpow (nth i xs fzero) (Z.of_nat k)) (spec_lagrange v xs i)) (gev l (nth i xs fzero)))
    (seq 0 (length xs))) = smul (fpow v (Z.of_nat k)) (gev l v).
Proof.
  intros Hd. induction l as [|P l IH]; intros k Hk; cbn [gev].
  - rewrite smul_gzero. generalize (seq 0 (length xs)). intros s. induction s as [|i s IH]; [reflexivity|].
    cbn [map]. rewrite gsum_cons, IH, smul_gzero. apply gadd_0_l.
  - cbn [length] in Hk.
    rewrite (gsum_map_ext _ (fun i => gadd (smul (fmul (fpow (nth i xs fzero) (Z.of_nat k)) (spec_lagrange v xs i)) P)
      (smul (fmul (fpow (nth i xs fzero) (Z.of_nat (S k))) (spec_lagrange v xs i)) (gev l (nth i xs fzero))))).
    + rewrite gsum_map_add, IH by lia. rewrite gsum_map_scal.
      rewrite (lagrange_sum xs (fun v => fpow v (Z.of_nat k))) by (try apply isp_pow; (assumption || lia)).
      rewrite Nat2Z.inj_succ, fpow_succ by lia. gring.
    + intros i _. rewrite Nat2Z.inj_succ, fpow_succ by lia. gring.
Qed.

Lemma interpolate_point_sum cs ys : length ys = length cs -> cs <> [] ->
  interpolate_point cs ys = Ok (gsum (map (fun i => smul (nth i cs fzero) (nth i ys gzero)) (seq 0 (length cs)))).
Proof.
  intros Hl Hne. unfold interpolate_point. rewrite Hl, Nat.eqb_refl. cbn [negb].
  destruct cs as [|c0 cs0]; [congruence|]. f_equal.
  assert (G' : forall (cs : list Fq) (ys : list G) (a : G), length ys = length cs ->
     fold_left (fun r cy => gadd r (smul (fst cy) (snd cy))) (combine cs ys) a =
     gadd a (gsum (map (fun i => smul (nth i cs fzero) (nth i ys gzero)) (seq 0 (length cs))))).
  { clear - GL. induction cs as [|c cs IH]; intros [|y ys] a H; cbn [length] in H; try lia.
    - symmetry. apply gadd_0_r.
    - cbn [combine fold_left length seq map fst snd]. rewrite IH by lia.
      rewrite gsum_cons, <- seq_shift, map_map. cbn [nth]. rewrite gadd_assoc. reflexivity. }
  rewrite G' by assumption. apply gadd_0_l.
Qed.

(** a function given by a point polynomial with at most n coefficients *)
Definition gisp (n : nat) (f : Fq -> G) : Prop := exists l, (length l <= n)%nat /\ forall v, f v = gev l v.

Lemma lagrange_point_reconstruct v samples f cs : Forall int64_ok samples -> NoDup samples ->
  lagrange_at_value v samples = Ok cs -> gisp (length samples) f ->
  interpolate_point cs (map (fun i => f (from_node_index i)) samples) = Ok (f v).
Proof.
  intros Hf Hd Hc (l & Hl & Hp).
  destruct samples as [|s0 rest]; [discriminate|]. set (ss := s0 :: rest) in *.
  assert (Hne : ss <> []) by (unfold ss; discriminate).
  pose proof (lagrange_value_spec v ss Hf Hd Hne) as E. clearbody ss.
  assert (cs = map (spec_lagrange v (map from_node_index ss)) (seq 0 (length ss))) as -> by congruence.
  rewrite interpolate_point_sum.
  - rewrite !map_length, !seq_length. f_equal.
    pose proof (lagrange_gsum (map from_node_index ss) v (nodes_nodup _ Hf Hd) l 0) as L.
    rewrite map_length in L. cbn [Nat.add] in L. specialize (L Hl).
    change (Z.of_nat 0) with 0 in L. rewrite fpow_0, smul_1 in L. rewrite Hp, <- L.
    apply gsum_map_ext. intros i Hi. apply in_seq in Hi. cbn [Nat.add] in Hi.
    rewrite nth_map_seq by lia. rewrite fpow_0.
    assert (E1 : fmul fone (spec_lagrange v (map from_node_index ss) i) = spec_lagrange v (map from_node_index ss) i) by ring.
    rewrite E1. f_equal. rewrite <- Hp.
    rewrite (nth_indep _ gzero (f (from_node_index 0))) by (rewrite map_length; lia).
    rewrite (map_nth (fun i => f (from_node_index i))).
    rewrite (nth_indep _ fzero (from_node_index 0)) by (rewrite map_length; lia).
    rewrite map_nth. reflexivity.
  - rewrite !map_length, seq_length. reflexivity.
  - destruct ss; [congruence|discriminate].
Qed.

(** ** creation *)
Lemma filter_len {A} (f : A -> bool) l : (length (filter f l) <= length l)%nat.
Proof. induction l as [|a l IH]; cbn [filter length]; [lia|]. destruct (f a); cbn [length]; lia. Qed.
Lemma nzc_filter po : non_zero_coefficients po = length (filter (fun c => negb (feqb c fzero)) po).
Proof.
  unfold non_zero_coefficients. induction po as [|c po IH]; [reflexivity|].
  cbn [filter length]. pose proof (filter_len (fun c => feqb c fzero) po).
  destruct (feqb c fzero); cbn [negb length]; lia.
Qed.
Lemma nzc_le po n : coeffs_below n po -> (non_zero_coefficients po <= n)%nat.
Proof.
  rewrite nzc_filter. revert n. induction po as [|c po IH]; intros n H; cbn [filter length]; [lia|].
  destruct n as [|n].
  - assert (c = fzero) as -> by (apply (H 0%nat); lia). rewrite feqb_refl. cbn [negb]. apply IH.
    intros i _. apply (H (S i)). lia.
  - assert (length (filter (fun c => negb (feqb c fzero)) po) <= n)%nat
      by (apply IH; intros i Hi; apply (H (S i)); lia).
    destruct (negb _); cbn [length]; lia.
Qed.
Definition trunc_points (po : list Fq) (n : nat) : list G := map (fun i => mul_by_g (coeff po i)) (seq 0 n).
Lemma simple_create_eq po num : simple_create po num =
  if num <? Z.of_nat (length (filter (fun c => negb (feqb c fzero)) po)) then Err
  else Ok (CSimple (trunc_points po (Z.to_nat num))).
Proof. unfold simple_create. rewrite nzc_filter. reflexivity. Qed.

Lemma trunc_points_commits po n : commits (trunc_points po n) (firstn n po).
Proof.
  intros i. unfold trunc_points. destruct (Nat.lt_ge_cases i n).
  - rewrite nth_map_seq by assumption. unfold mul_by_g, coeff. f_equal.
    rewrite <- (firstn_skipn n po) at 1.
    destruct (Nat.lt_ge_cases i (length (firstn n po))) as [Hi|Hi].
    + apply app_nth1. assumption.
    + rewrite firstn_length in Hi. rewrite !nth_overflow; [reflexivity| |]; rewrite ?app_length, ?firstn_length, ?skipn_length; lia.
  - rewrite nth_overflow by (rewrite map_length, seq_length; assumption).
    rewrite nth_overflow by (rewrite firstn_length; lia). symmetry. apply smul_zero.
Qed.
Lemma simple_create_spec po num : coeffs_below (Z.to_nat num) po -> 0 <= num ->
  exists l, simple_create po num = Ok (CSimple l) /\ length l = Z.to_nat num /\ commits l po.
Proof.
  intros Hl Hn. unfold simple_create. pose proof (nzc_le _ _ Hl).
  assert (num <? Z.of_nat (non_zero_coefficients po) = false) as -> by (apply Z.ltb_ge; lia).
  eexists. split; [reflexivity|]. rewrite map_length, seq_length. split; [reflexivity|].
  intros i. destruct (Nat.lt_ge_cases i (Z.to_nat num)).
  - rewrite nth_map_seq by assumption. reflexivity.
  - rewrite nth_overflow by (rewrite map_length, seq_length; assumption).
    rewrite Hl by assumption. symmetry. apply smul_zero.
Qed.
Lemma pedersen_create_spec po mo num : coeffs_below (Z.to_nat num) po -> coeffs_below (Z.to_nat num) mo -> 0 <= num ->
  exists l, pedersen_create po mo num = Ok (CPedersen l) /\ length l = Z.to_nat num /\ commits2 l po mo.
Proof.
  intros Hl Hm Hn. unfold pedersen_create. pose proof (nzc_le _ _ Hl). pose proof (nzc_le _ _ Hm).
  assert ((num <? Z.of_nat (non_zero_coefficients po)) || (num <? Z.of_nat (non_zero_coefficients mo)) = false) as ->.
  { apply orb_false_iff. split; apply Z.ltb_ge; lia. }
  eexists. split; [reflexivity|]. rewrite map_length, seq_length. split; [reflexivity|].
  intros i. destruct (Nat.lt_ge_cases i (Z.to_nat num)).
  - rewrite nth_map_seq by assumption. reflexivity.
  - rewrite nth_overflow by (rewrite map_length, seq_length; assumption).
    rewrite Hl, Hm by assumption. rewrite !smul_zero, gadd_0_l. reflexivity.
Qed.

(** ** openings *)
Lemma check_simple l po i v : l <> [] -> commits l po ->
  c_check_opening (CSimple l) i (OSimple v) = Ok (feqb v (spec_eval po (node_x i))).
Proof.
  intros Hl Hc. cbn [c_check_opening unwrap]. rewrite eval_points_gev by assumption. cbn [bind]. f_equal.
  rewrite (commits_gev _ _ _ Hc), <- pev_spec, node_x_eq.
  destruct (feqb v (spec_eval po (node_x i))) eqn:E.
  - apply feqb_eq in E. subst. apply geqb_refl.
  - apply geqb_false. intros H. apply mul_by_g_inj in H. subst. rewrite feqb_refl in E. discriminate.
Qed.
Lemma check_pedersen l po mo i v m : l <> [] -> commits2 l po mo ->
  c_check_opening (CPedersen l) i (OPedersen v m) =
  Ok (geqb (pedersen (spec_eval po (node_x i)) (spec_eval mo (node_x i))) (pedersen v m)).
Proof.
  intros Hl Hc. cbn [c_check_opening unwrap]. rewrite eval_points_gev by assumption. cbn [bind]. f_equal.
  rewrite (commits2_gev _ _ _ _ Hc), <- !pev_spec, node_x_eq. reflexivity.
Qed.
Lemma pedersen_collision v m v' m' : pedersen v m = pedersen v' m' -> (v, m) <> (v', m') ->
  m <> m' /\ genH = smul (fdiv (fsub v v') (fsub m' m)) genG.
Proof.
  intros E N.
  assert (H : smul (fsub m' m) genH = smul (fsub v v') genG).
  { unfold pedersen, mul_points in E.
    apply (gadd_cancel_l (gadd (smul v' genG) (smul m genH))).
    transitivity (gadd (smul v' genG) (smul m' genH)); [gring|]. rewrite <- E. gring. }
  assert (M : m <> m').
  { intros ->. apply N. f_equal.
    assert (Z1 : fsub m' m' = fzero) by ring. rewrite Z1, smul_zero in H.
    symmetry in H. apply smul_eq0 in H. destruct H as [H|H]; [apply fsub_zero; exact H|exfalso; exact (genG_nz H)]. }
  split; [exact M|].
  assert (D : fsub m' m <> fzero) by (intros H0; apply fsub_zero in H0; congruence).
  unfold fdiv. assert (E1 : fmul (fsub v v') (finv (fsub m' m)) = fmul (finv (fsub m' m)) (fsub v v')) by ring.
  rewrite E1, smul_mul, <- H, <- smul_mul, finv_l by (exact q_prime || exact D). symmetry. apply smul_1.
Qed.
Lemma check_wrapped c i o : c_check_opening c i o = c_check_opening (unwrap c) i o.
Proof.
  unfold c_check_opening. assert (E : unwrap (unwrap c) = unwrap c) by (induction c; auto). rewrite E. reflexivity.
Qed.
Lemma check_pedersen_binding c i v m v' m' :
  c_check_opening c i (OPedersen v m) = Ok true -> c_check_opening c i (OPedersen v' m') = Ok true ->
  (v, m) <> (v', m') -> m <> m' /\ genH = smul (fdiv (fsub v v') (fsub m' m)) genG.
Proof.
  rewrite (check_wrapped c i (OPedersen v m)), (check_wrapped c i (OPedersen v' m')).
  unfold c_check_opening. destruct (unwrap (unwrap c)); try discriminate.
  destruct (eval_points pts i); cbn [bind]; try discriminate. intros H1 H2. injection H1. injection H2.
  intros E2 E1. apply (proj1 (geqb_iff _ _)) in E1. apply (proj1 (geqb_iff _ _)) in E2. apply pedersen_collision. congruence.
Qed.
Lemma check_simple_binding c i v v' :
  c_check_opening c i (OSimple v) = Ok true -> c_check_opening c i (OSimple v') = Ok true -> v = v'.
Proof.
  rewrite (check_wrapped c i (OSimple v)), (check_wrapped c i (OSimple v')).
  unfold c_check_opening. destruct (unwrap (unwrap c)); try discriminate.
  destruct (eval_points pts i); cbn [bind]; try discriminate. intros H1 H2. injection H1. injection H2.
  intros E2 E1. apply (proj1 (geqb_iff _ _)) in E1. apply (proj1 (geqb_iff _ _)) in E2. apply mul_by_g_inj. congruence.
Qed.

(** ** truncation *)
Lemma fadd_self_zero (a b : Fq) : fadd a b = a -> b = fzero.
Proof.
  intros H. assert (E : b = fsub (fadd a b) a) by ring. rewrite E, H. ring.
Qed.
Lemma check_truncated po n i : n <> 0%nat ->
  c_check_opening (CSimple (trunc_points po n)) i (OSimple (spec_eval po (node_x i))) =
  Ok (feqb (fmul (fpow (node_x i) (Z.of_nat n)) (spec_eval (skipn n po) (node_x i))) fzero).
Proof.
  intros Hn. rewrite (check_simple _ (firstn n po)).
  - f_equal. rewrite !pev_spec. set (x := node_x i).
    rewrite <- (firstn_skipn n po) at 1. rewrite pev_app.
    assert (fpow x (Z.of_nat (length (firstn n po))) = fpow x (Z.of_nat n) \/ skipn n po = []) as [->| ->].
    { rewrite firstn_length. destruct (Nat.lt_ge_cases n (length po)).
      - left. f_equal. lia.
      - right. apply skipn_all2. assumption. }
    + destruct (feqb (fmul (fpow x (Z.of_nat n)) (pev (skipn n po) x)) fzero) eqn:E.
      * apply feqb_eq in E. rewrite E. assert (E1 : fadd (pev (firstn n po) x) fzero = pev (firstn n po) x) by ring.
        rewrite E1. apply feqb_refl.
      * apply feqb_neq. intros H. apply feqb_neq in E. apply E.
        apply (fadd_self_zero (pev (firstn n po) x)). exact H.
    + cbn [pev]. assert (E1 : fadd (pev (firstn n po) x) (fmul (fpow x (Z.of_nat (length (firstn n po)))) fzero) = pev (firstn n po) x) by ring.
      assert (E2 : fmul (fpow x (Z.of_nat n)) fzero = fzero) by ring.
      rewrite E1, E2, !feqb_refl. reflexivity.
  - unfold trunc_points. destruct n; [congruence|discriminate].
  - apply trunc_points_commits.
Qed.

(** ** stable representation *)
Lemma flat_ser_inj : forall l1 l2, flat_map ser l1 = flat_map ser l2 -> l1 = l2.
Proof.
  induction l1 as [|a l1 IH]; intros [|b l2] H; [reflexivity| | |].
  - exfalso. cbn [flat_map] in H. apply (f_equal (@List.length Z)) in H. rewrite app_length in H.
    pose proof (ser_len b). unfold blen in *. cbn [length] in H. lia.
  - exfalso. cbn [flat_map] in H. apply (f_equal (@List.length Z)) in H. rewrite app_length in H.
    pose proof (ser_len a). unfold blen in *. cbn [length] in H. lia.
  - cbn [flat_map] in H. apply app_same_length in H as [H1 H2].
    + apply ser_inj in H1. f_equal; [assumption|]. apply IH. assumption.
    + pose proof (ser_len a). pose proof (ser_len b). unfold blen in *. lia.
Qed.
Lemma stable_inj c d r : c_stable c = Ok r -> c_stable d = Ok r -> unwrap c = unwrap d.
Proof.
  unfold c_stable, c_curve, c_points.
  destruct (unwrap c) as [l|l|?|?|], (unwrap d) as [k|k|?|?|]; cbn [bind]; try discriminate;
    destruct l, k; cbn [bind]; try discriminate; intros H1 H2; rewrite <- H2 in H1; injection H1 as H3;
    try discriminate; f_equal; apply flat_ser_inj; cbn [flat_map]; congruence.
Qed.
Lemma bytes_compare_refl a : bytes_compare a a = 0.
Proof. unfold bytes_compare. rewrite (proj2 (bytes_eqb_eq a a) eq_refl). reflexivity. Qed.
Lemma tr_compare_const t o : tr_compare t o = match c_stable (tr_commitment t) with Ok _ => Ok 0 | r => do _ <- r; Ok 0 end.
Proof.
  unfold tr_compare. destruct (c_stable _); cbn [bind]; try reflexivity. rewrite bytes_compare_refl. reflexivity.
Qed.
Lemma c_equal_iff c d : c_equal c d = Ok true <-> exists l, c_points c = Ok l /\ c_points d = Ok l.
Proof.
  unfold c_equal. split.
  - destruct (c_points c) as [l| | |]; cbn [bind]; try discriminate.
    destruct (c_points d) as [r| | |]; cbn [bind]; try discriminate.
    intros H. injection H as H. apply andb_true_iff in H as [H1 H2]. apply Nat.eqb_eq in H1.
    exists l. split; [reflexivity|]. f_equal. revert r H1 H2.
    induction l as [|a l IH]; intros [|b r]; cbn [length combine forallb]; try lia; [reflexivity|].
    intros H1 H2. apply andb_true_iff in H2 as [H2 H3]. apply (proj1 (geqb_iff _ _)) in H2. subst. f_equal. apply IH; [lia|assumption].
  - intros (l & -> & ->). cbn [bind]. f_equal. rewrite Nat.eqb_refl. cbn [andb].
    induction l as [|a l IH]; cbn [combine forallb]; [reflexivity|]. rewrite geqb_refl. exact IH.
Qed.
End P.

(** ** serialised openings *)
Lemma opening_roundtrip o c : opening_serialize o = Ok c ->
  opening_deserialize c = Ok (DSimple (Some (match o with OSimple v | OSimplePtr v | OPedersen v _ | OPedersenPtr v _ => v | ONil => fzero end))).
Proof.
  assert (R : forall v, scalar_of_cbor (scalar_serialize_tagged v) = Ok v) by (intros v; exact (k256_roundtrip v)).
  destruct o; cbn [opening_serialize]; intros H; try discriminate; injection H as <-; unfold opening_deserialize;
    cbn [oc_type oc_curve oc_msg]; change (ct_simple =? ct_simple) with true; change (1 =? 1) with true; cbn [andb];
    unfold slot; cbn [nth_error]; rewrite R; reflexivity.
Qed.
Lemma check_decoded_panics {GO : Grp} d k i : c_check_opening k i (opening_of_decoded d) = Panic.
Proof. destruct d; unfold c_check_opening, opening_of_decoded; destruct (unwrap k); reflexivity. Qed.
