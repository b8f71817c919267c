(** C91: recovering a share from openings: one wrong opening stops it, leaving out
    the wrong ones makes it work. *)
From Coq Require Import ZArith Lia Bool String List Ring Field.
From Verif Require Import Base BaseFacts Zmod Fields ModelScalar ProofScalar ModelXmd ModelRo SpecPoly ModelPoly ProofPoly
  ProofLagrange ModelGroup GroupFacts SpecGroup ModelCommit ProofCommit ModelZk ModelMega ModelDealing SpecDealing ProofDealing ProofTranscript PropDealing.
From Verif Require Import Toy.
Import ListNotations.
Open Scope Z_scope.

(** Spec: an opening given by value, of either kind (not a pointer, not nil) *)
Definition by_value (o : opening) : Prop := match o with OSimple _ | OPedersen _ _ => True | _ => False end.
(** Spec: keep the openings that match the commitment *)
Definition good_openings {GO : Grp} (c : commitment) (os : list (Z * opening)) : list (Z * opening) :=
  filter (fun ko => match c_check_opening c (fst ko) (snd ko) with Ok b => b | _ => false end) os.

Section Recover.
Context {GO : Grp} {GL : GrpLaws GO}.

Lemma wsum_app (a b : list Fq) : forall (p r : list G), length a = length p -> wsum (a ++ b) (p ++ r) = gadd (wsum a p) (wsum b r).
Proof.
  induction a as [|x a IH]; intros [|y p] r L; try discriminate L; cbn [app wsum].
  - symmetry. apply gadd_0_l.
  - rewrite IH by (cbn [length] in L; congruence). apply gadd_assoc.
Qed.
Lemma basis_nz (v x : Fq) l : ~ In v l -> ~ In x l -> fprod (map (fun y => fdiv (fsub v y) (fsub x y)) l) <> fzero.
Proof.
  intros A B. apply fprod_neq0. intros a H. apply in_map_iff in H. destruct H as (y & <- & Hy).
  assert (N1 : fsub v y <> fzero) by (intros Q; apply A; rewrite (fsub_zero _ _ Q); exact Hy).
  assert (N2 : fsub x y <> fzero) by (intros Q; apply B; rewrite (fsub_zero _ _ Q); exact Hy).
  intros Q. apply N1. assert (E : fsub v y = fmul (fdiv (fsub v y) (fsub x y)) (fsub x y)) by (field; exact N2).
  rewrite E, Q. ring.
Qed.
Lemma lagrange_mid v (ks1 ks2 : list Z) k : Forall int64_ok (ks1 ++ k :: ks2) -> NoDup (ks1 ++ k :: ks2) ->
  exists cs1 c cs2, lagrange_at_value v (ks1 ++ k :: ks2) = Ok (cs1 ++ c :: cs2) /\ length cs1 = length ks1 /\ length cs2 = length ks2 /\
    (c = fzero <-> In v (map from_node_index (ks1 ++ ks2))).
Proof.
  intros F N. rewrite (lagrange_value_spec v _ F N) by (destruct ks1; discriminate).
  pose proof (nodes_nodup _ F N) as D. rewrite map_app in D |- *. cbn [map] in D |- *.
  set (xs1 := map from_node_index ks1) in *. set (xs2 := map from_node_index ks2) in *. set (x := from_node_index k) in *.
  rewrite app_length. cbn [length]. rewrite seq_app. cbn [seq Nat.add]. rewrite map_app. cbn [map].
  eexists _, _, _. split; [reflexivity|]. rewrite !map_length, !seq_length. split; [reflexivity|]. split; [reflexivity|].
  assert (length ks1 = length xs1) as -> by (unfold xs1; rewrite map_length; reflexivity).
  rewrite spec_lagrange_split. rewrite map_app. fold xs1 xs2. apply NoDup_remove_2 in D. rewrite in_app_iff in D.
  assert (Z : forall l, ~ In x l -> In v l -> fprod (map (fun y => fdiv (fsub v y) (fsub x y)) l) = fzero).
  { intros l _ Hv. apply fprod_zero. apply in_map_iff. exists v. split; [|exact Hv]. assert (fsub v v = fzero) as -> by ring. apply fdiv_0_l. }
  rewrite in_app_iff. split.
  - intros Q. destruct (in_dec (fe_dec q) v xs1) as [I|I]; [auto|]. destruct (in_dec (fe_dec q) v xs2) as [J|J]; [auto|]. exfalso.
    apply (fmul_integral q_prime) in Q. destruct Q as [Q|Q]; revert Q; apply basis_nz; tauto.
  - intros [I|I]; [rewrite (Z xs1) by tauto|rewrite (Z xs2) by tauto]; ring.
Qed.

(** the point an opening commits to *)
Definition com (pair : bool) (o : opening) : G := if pair then pedersen (oval o) (omask o) else mul_by_g (oval o).
Lemma reconstruct_form d os ix l cs (pair : bool) : keys_ok os -> d_cm d = (if pair then CPedersen l else CSimple l) -> l <> [] ->
  (forall ko, In ko os -> snd ko = if pair then OPedersen (oval (snd ko)) (omask (snd ko)) else OSimple (oval (snd ko))) ->
  (length l <= length os)%nat -> lagrange_at_value (from_node_index ix) (map fst os) = Ok cs ->
  (wsum cs (map (fun ko => com pair (snd ko)) os) = gev l (from_node_index ix) /\ exists o, reconstruct_share d os ix = Ok o) \/
  (wsum cs (map (fun ko => com pair (snd ko)) os) <> gev l (from_node_index ix) /\ reconstruct_share d os ix = Err).
Proof.
  intros [F N] U Nl S L E.
  assert (Ne : map fst os <> []) by (destruct os; [destruct l; [congruence|cbn [length] in L; lia]|discriminate]).
  destruct (lagrange_ok (from_node_index ix) (map fst os) F N Ne) as (cs' & E' & Lc & Nc). rewrite E in E'. assert (cs' = cs) by congruence. subst cs'.
  rewrite map_length in Lc.
  unfold reconstruct_share. rewrite U.
  assert (c_len (if pair then CPedersen l else CSimple l) = Ok (Z.of_nat (length l))) as -> by (destruct pair; reflexivity). rewrite bind_Ok.
  destruct (Z.ltb_spec (Z.of_nat (length os)) (Z.of_nat (length l))); [lia|].
  assert (exists x, c_curve (if pair then CPedersen l else CSimple l) = Ok x) as [y ->].
  { destruct l as [|P l]; [congruence|]. destruct pair; eexists; reflexivity. }
  rewrite bind_Ok. cbv zeta. destruct pair.
  - rewrite collect_pedersen_ok by exact S. rewrite bind_Ok, !map_map. cbn [fst snd].
    change (map (fun x : Z * opening => fst x) os) with (map (@fst Z opening) os). rewrite E, bind_Ok.
    rewrite !interpolate_scalar_wsum by (rewrite ?map_length; auto). rewrite !bind_Ok.
    unfold com. rewrite (wsum_pedersen (fun ko : Z * opening => oval (snd ko)) (fun ko => omask (snd ko)) os cs).
    unfold c_return_if_consistent, c_check_opening. cbn [unwrap]. rewrite (eval_points_gev l ix Nl), !bind_Ok.
    destruct (geqb _ _) eqn:Q.
    + left. apply geqb_iff in Q. split; [congruence|eauto].
    + right. split; [|reflexivity]. intros W. rewrite W in Q. assert (geqb (gev l (from_node_index ix)) (gev l (from_node_index ix)) = true) by (apply geqb_iff; reflexivity). congruence.
  - rewrite collect_simple_ok by exact S. rewrite bind_Ok, !map_map. cbn [fst snd].
    change (map (fun x : Z * opening => fst x) os) with (map (@fst Z opening) os). rewrite E, bind_Ok.
    rewrite !interpolate_scalar_wsum by (rewrite ?map_length; auto). rewrite !bind_Ok.
    unfold com, mul_by_g. rewrite (wsum_scal (fun ko : Z * opening => oval (snd ko)) genG os cs).
    unfold c_return_if_consistent, c_check_opening. cbn [unwrap]. rewrite (eval_points_gev l ix Nl), !bind_Ok. unfold mul_by_g.
    destruct (geqb _ _) eqn:Q.
    + left. apply geqb_iff in Q. split; [congruence|eauto].
    + right. split; [|reflexivity]. intros W. rewrite W in Q. assert (geqb (gev l (from_node_index ix)) (gev l (from_node_index ix)) = true) by (apply geqb_iff; reflexivity). congruence.
Qed.
Lemma smul_inj_r (c : Fq) (a b : G) : c <> fzero -> smul c a = smul c b -> a = b.
Proof.
  intros N H. assert (E : forall P : G, P = smul (finv c) (smul c P)).
  { intros P. rewrite <- smul_mul. assert (fmul (finv c) c = fone) as -> by (field; exact N). rewrite smul_1. reflexivity. }
  rewrite (E a), (E b), H. reflexivity.
Qed.
(** all but one opening right *)
Lemma one_off d os1 k o os2 ix l (pair : bool) : keys_ok (os1 ++ (k, o) :: os2) -> int64_ok ix ->
  d_cm d = (if pair then CPedersen l else CSimple l) -> l <> [] ->
  (forall j p, In (j, p) (os1 ++ os2) -> c_check_opening (d_cm d) j p = Ok true) ->
  o = (if pair then OPedersen (oval o) (omask o) else OSimple (oval o)) -> c_check_opening (d_cm d) k o <> Ok true ->
  (length l <= length (os1 ++ (k, o) :: os2))%nat ->
  (In ix (map fst (os1 ++ os2)) /\ exists s, reconstruct_share d (os1 ++ (k, o) :: os2) ix = Ok s) \/
  (~ In ix (map fst (os1 ++ os2)) /\ reconstruct_share d (os1 ++ (k, o) :: os2) ix = Err).
Proof.
  intros K Ix U Nl H So Bad L. pose proof K as [F N]. rewrite map_app in F, N. cbn [map fst] in F, N.
  destruct (lagrange_mid (from_node_index ix) (map fst os1) (map fst os2) k F N) as (cs1 & c & cs2 & E & L1 & L2 & Zc).
  rewrite map_length in L1, L2.
  assert (Good : forall j p, In (j, p) (os1 ++ os2) ->
    p = (if pair then OPedersen (oval p) (omask p) else OSimple (oval p)) /\ gev l (from_node_index j) = com pair p).
  { intros j p Hin. specialize (H j p Hin). rewrite U in H. destruct pair.
    - destruct (check_true_pedersen (CPedersen l) j p l eq_refl H) as (A & _ & B). auto.
    - destruct (check_true_simple (CSimple l) j p l eq_refl H) as (A & _ & B). auto. }
  assert (Ng : gev l (from_node_index k) <> com pair o).
  { intros Q. apply Bad. rewrite U. destruct pair; rewrite So.
    - apply (check_intro_pedersen _ _ l); [reflexivity|exact Nl|exact Q].
    - apply (check_intro_simple _ _ l); [reflexivity|exact Nl|exact Q]. }
  assert (GI : gisp (length (map fst os1 ++ k :: map fst os2)) (gev l)).
  { apply gisp_gev. rewrite app_length in L |- *. cbn [length] in L |- *. rewrite !map_length. exact L. }
  pose proof (lagrange_wsum _ _ (gev l) _ F N E GI) as W. rewrite map_app in W. cbn [map] in W.
  rewrite wsum_app in W by (rewrite !map_length; exact L1). cbn [wsum] in W. rewrite !map_map in W.
  assert (M : forall os, (forall e, In e os -> In e (os1 ++ os2)) -> map (fun ko : Z * opening => com pair (snd ko)) os = map (fun x => gev l (from_node_index (fst x))) os).
  { intros os I. apply map_ext_in. intros [j p] Hin. cbn [fst snd]. symmetry. apply Good, I, Hin. }
  assert (D : wsum (cs1 ++ c :: cs2) (map (fun ko => com pair (snd ko)) (os1 ++ (k, o) :: os2)) = gev l (from_node_index ix) <-> c = fzero).
  { rewrite map_app. cbn [map snd]. rewrite wsum_app by (rewrite map_length; exact L1). cbn [wsum].
    rewrite (M os1), (M os2) by (intros e He; apply in_app_iff; auto). rewrite <- W. split.
    - intros Q. apply gadd_cancel_l in Q. rewrite (gadd_comm (smul c (com pair o))), (gadd_comm (smul c (gev l (from_node_index k)))) in Q. apply gadd_cancel_l in Q.
      destruct (fe_dec q c fzero) as [Ec|Nc]; [exact Ec|]. exfalso. apply Ng. symmetry. exact (smul_inj_r c _ _ Nc Q).
    - intros ->. rewrite !smul_zero. reflexivity. }
  assert (J : c = fzero <-> In ix (map fst (os1 ++ os2))).
  { rewrite Zc, <- map_app. split; intros I.
    - apply in_map_iff in I. destruct I as (j & Ej & Ij). apply from_node_index_inj in Ej; [subst j; exact Ij| |exact Ix].
      rewrite Forall_forall in F. apply F. rewrite map_app in Ij. apply in_app_iff in Ij. apply in_app_iff. cbn [In]. tauto.
    - apply in_map. exact I. }
  destruct (reconstruct_form d (os1 ++ (k, o) :: os2) ix l (cs1 ++ c :: cs2) pair K U Nl) as [(A & B)|(A & B)].
  - intros [j p] Hin. cbn [snd]. apply in_app_iff in Hin. cbn [In] in Hin. destruct Hin as [Hin|[Hin|Hin]].
    + apply (Good j). apply in_app_iff. auto.
    + assert (p = o) as -> by congruence. exact So.
    + apply (Good j). apply in_app_iff. auto.
  - exact L.
  - rewrite map_app. exact E.
  - left. split; [apply J, D, A|exact B].
  - right. split; [|exact B]. intros I. apply A, D, J, I.
Qed.
End Recover.

(** the code uses every opening it is given, so one node that sends a wrong value
    stops the recovery, however many right openings there are *)
Theorem C91_one_wrong_opening_blocks : forall (X : Oracles) (GO : Grp) (GL : GrpLaws GO) d l os1 k o os2 ix,
  d_cm d = CSimple l \/ d_cm d = CPedersen l -> l <> [] -> keys_ok (os1 ++ (k, o) :: os2) -> int64_ok ix ->
  by_value o -> c_check_opening (d_cm d) k o <> Ok true ->
  (forall j p, In (j, p) (os1 ++ os2) -> c_check_opening (d_cm d) j p = Ok true) ->
  ~ In ix (map fst (os1 ++ os2)) ->
  reconstruct_share d (os1 ++ (k, o) :: os2) ix = Err.
Proof.
  intros X GO GL d l os1 k o os2 ix U Nl K Ix V Bad H I.
  destruct (Nat.le_gt_cases (length l) (length (os1 ++ (k, o) :: os2))) as [L|L].
  2:{ apply (C43_too_few X GO d _ ix (Z.of_nat (length l))); [|lia]. destruct U as [U|U]; rewrite U; reflexivity. }
  destruct U as [U|U].
  - destruct o as [v|v m| | | ]; try contradiction V.
    + destruct (one_off d os1 k (OSimple v) os2 ix l false K Ix U Nl H eq_refl Bad L) as [[A _]|[_ A]]; [contradiction|exact A].
    + destruct (C43_wrong_kind X GO d l (os1 ++ (k, OPedersen v m) :: os2) ix k v m Nl) as [A _]. apply (A U). apply in_app_iff. right. left. reflexivity.
  - destruct o as [v|v m| | | ]; try contradiction V.
    + destruct (C43_wrong_kind X GO d l (os1 ++ (k, OSimple v) :: os2) ix k v v Nl) as [_ A]. apply (A U). apply in_app_iff. right. left. reflexivity.
    + destruct (one_off d os1 k (OPedersen v m) os2 ix l true K Ix U Nl H eq_refl Bad L) as [[A _]|[_ A]]; [contradiction|exact A].
Qed.
Print Assumptions C91_one_wrong_opening_blocks.

Lemma good_in {GO : Grp} c os k o : In (k, o) (good_openings c os) <-> In (k, o) os /\ c_check_opening c k o = Ok true.
Proof.
  unfold good_openings. rewrite filter_In. cbn [fst snd]. destruct (c_check_opening c k o) as [[|]| | |]; intuition congruence.
Qed.
Lemma good_keys {GO : Grp} c os : keys_ok os -> keys_ok (good_openings c os).
Proof.
  unfold good_openings. intros [F N]. induction os as [|e os IH]; [split; constructor|].
  cbn [map] in F, N. inversion F as [|? ? A B]; subst. inversion N as [|? ? C D]; subst. destruct (IH B D) as [F' N'].
  cbn [filter]. destruct (match c_check_opening c (fst e) (snd e) with Ok b => b | _ => false end); [|split; assumption].
  split; cbn [map]; constructor; try assumption. intros I. apply C. apply in_map_iff in I. destruct I as (y & E & I).
  apply in_map_iff. exists y. split; [exact E|]. apply filter_In in I. apply I.
Qed.
(** a caller that first drops what does not match the commitment (with the
    exported check) recovers the share exactly if enough openings remain; the
    wrong ones, however many, cannot change the outcome *)
Theorem C91_filtering_recovers : forall (X : Oracles) (GO : Grp) (GL : GrpLaws GO) d l os ix,
  d_cm d = CSimple l \/ d_cm d = CPedersen l -> l <> [] -> keys_ok os ->
  ((length l <= length (good_openings (d_cm d) os))%nat ->
   exists o, reconstruct_share d (good_openings (d_cm d) os) ix = Ok o /\ c_check_opening (d_cm d) ix o = Ok true) /\
  ((length (good_openings (d_cm d) os) < length l)%nat -> reconstruct_share d (good_openings (d_cm d) os) ix = Err).
Proof.
  intros X GO GL d l os ix U Nl K. split; intros L.
  - apply (C43_reconstruct X GO GL d l); try assumption; [apply good_keys, K|]. intros k o I. apply good_in in I. apply I.
  - apply (C43_too_few X GO d _ ix (Z.of_nat (length l))); [|lia]. destruct U as [U|U]; rewrite U; reflexivity.
Qed.
Print Assumptions C91_filtering_recovers.

(** the line 5 + x with a wrong third opening *)
Definition ex_d : @dealing toyG := mkdealing MNil (CSimple [mul_by_g (of_Z q 5); mul_by_g fone]) PNone.
Definition ex_os : list (Z * opening) := [(0, OSimple (of_Z q 6)); (2, OSimple (of_Z q 8))].
Example C91_ex : keys_ok (ex_os ++ [(4, OSimple (of_Z q 11))]) /\ c_check_opening (d_cm ex_d) 4 (OSimple (of_Z q 11)) <> Ok true /\
  (forall j p, In (j, p) ex_os -> c_check_opening (d_cm ex_d) j p = Ok true) /\ ~ In 1 (map fst ex_os).
Proof.
  split; [|split; [|split]].
  - split; cbn [map fst app ex_os].
    + repeat constructor; unfold int64_ok; lia.
    + repeat constructor; cbn; intuition discriminate.
  - assert (E : c_check_opening (d_cm ex_d) 4 (OSimple (of_Z q 11)) = Ok false) by (vm_compute; reflexivity). rewrite E. discriminate.
  - intros j p [E|[E|[]]]; injection E as <- <-; vm_compute; reflexivity.
  - cbn. intuition discriminate.
Qed.
Example C91_ex_blocked : reconstruct_share ex_d (ex_os ++ [(4, OSimple (of_Z q 11))]) 1 = Err.
Proof.
  destruct C91_ex as (K & B & H & I).
  apply (C91_one_wrong_opening_blocks toyX toyG toyL ex_d _ ex_os 4 (OSimple (of_Z q 11)) [] 1 (or_introl eq_refl));
    [discriminate|exact K|unfold int64_ok; lia|exact Logic.I|exact B| |].
  - rewrite app_nil_r. exact H.
  - rewrite app_nil_r. exact I.
Qed.
Example C91_ex_filtered : length (good_openings (d_cm ex_d) (ex_os ++ [(4, OSimple (of_Z q 11))])) = 2%nat.
Proof. vm_compute. reflexivity. Qed.
