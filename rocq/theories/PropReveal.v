(** C92: published openings of a dealing give away what was dealt, without any key. *)
From Coq Require Import ZArith Lia Bool String List Ring Field.
From Verif Require Import Base BaseFacts Zmod Fields ModelScalar ProofScalar ModelXmd ModelRo SpecPoly ModelPoly ProofPoly
  ProofLagrange ProofSecrecy ModelGroup GroupFacts SpecGroup ModelCommit ProofCommit ModelZk ModelMega ModelDealing SpecDealing ProofDealing ProofTranscript ProofHonest
  ProofProtocol PropDealing PropTamper PropRecover.
From Verif Require Import Toy.
Import ListNotations.
Open Scope Z_scope.

Section Reveal.
Context {X : Oracles} {GO : Grp} {GL : GrpLaws GO}.

Lemma node_minus_one : from_node_index (-1) = fzero.
Proof. apply (from_node_index_zero (-1)); [unfold int64_ok; lia|reflexivity]. Qed.
(** what an opening at index -1 opens *)
Lemma opens_constant c o : c_check_opening c (-1) o = Ok true ->
  exists P, c_constant_term c = Ok P /\ match o with OSimple s => P = mul_by_g s | OPedersen s m => P = pedersen s m | _ => False end.
Proof.
  intros H. unfold c_constant_term, c_points. destruct (unwrap c) as [l|l| | |] eqn:U;
    try (unfold c_check_opening in H; rewrite U in H; discriminate H).
  - destruct (check_true_simple c (-1) o l U H) as (A & N & E). rewrite node_minus_one, gev_0 in E. rewrite bind_Ok.
    destruct l as [|P l]; [congruence|]. exists P. split; [reflexivity|]. rewrite A. exact E.
  - destruct (check_true_pedersen c (-1) o l U H) as (A & N & E). rewrite node_minus_one, gev_0 in E. rewrite bind_Ok.
    destruct l as [|P l]; [congruence|]. exists P. split; [reflexivity|]. rewrite A. exact E.
Qed.
Lemma mapM_in {A B} (f g : A -> res B) l : (forall a, In a l -> f a = g a) -> mapM f l = mapM g l.
Proof.
  induction l as [|a l IH]; intros H; cbn [mapM]; [reflexivity|]. rewrite (H a (or_introl eq_refl)), IH by (intros b I; exact (H b (or_intror I))). reflexivity.
Qed.
Lemma provided_keyless ds provided tc ad i sk pk sk' pk' : (forall k d, In (k, d) ds -> exists os, zlookup k provided = Some os) ->
  from_dealings_and_openings ds provided tc ad i sk pk = from_dealings_and_openings ds provided tc ad i sk' pk'.
Proof.
  intros H. unfold from_dealings_and_openings.
  rewrite (mapM_in _ (fun kd => match zlookup (fst kd) provided with
    | Some shares => reconstruct_share (snd kd) shares i
    | None => m_decrypt_and_check (d_ct (snd kd)) (d_cm (snd kd)) ad (fst kd) i sk' pk' end) ds); [reflexivity|].
  intros [k d] I. cbn [fst snd]. destruct (H k d I) as [os ->]. reflexivity.
Qed.

(** openings that lie on the dealt polynomials give their value at any index *)
Lemma reconstruct_dealt d os ix l po mo (pair : bool) : keys_ok os -> d_cm d = (if pair then CPedersen l else CSimple l) -> l <> [] ->
  (forall j o, In (j, o) os -> o = opening_at po mo pair j) -> (length l <= length os)%nat ->
  (length po <= length os)%nat -> (pair = true -> (length mo <= length os)%nat) -> is_ok (reconstruct_share d os ix) = true ->
  reconstruct_share d os ix = Ok (opening_at po mo pair ix).
Proof.
  intros [F N] U Nl S L Lp Lm O. unfold reconstruct_share in O |- *. rewrite U in O |- *.
  assert (c_len (if pair then CPedersen l else CSimple l) = Ok (Z.of_nat (length l))) as E1 by (destruct pair; reflexivity). rewrite E1, bind_Ok in O |- *.
  destruct (Z.ltb_spec (Z.of_nat (length os)) (Z.of_nat (length l))); [lia|].
  assert (exists x, c_curve (if pair then CPedersen l else CSimple l) = Ok x) as [y E2].
  { destruct l as [|P l]; [congruence|]. destruct pair; eexists; reflexivity. }
  rewrite E2, bind_Ok in O |- *. cbv zeta in O |- *.
  assert (Ne : map fst os <> []) by (destruct os; [destruct l; [congruence|cbn [length] in L; lia]|discriminate]).
  destruct (lagrange_ok (from_node_index ix) (map fst os) F N Ne) as (cs & E & Lc & Nc). rewrite map_length in Lc.
  assert (V : forall f, (forall j o, In (j, o) os -> f o = pev po (from_node_index j)) -> fwsum cs (map (fun e => f (snd e)) os) = pev po (from_node_index ix)).
  { intros f Hf. rewrite <- (lagrange_fwsum (from_node_index ix) (map fst os) (pev po) cs F N E) by (apply isp_pev; rewrite map_length; exact Lp).
    rewrite map_map. f_equal. apply map_ext_in. intros [j o] I. exact (Hf j o I). }
  rewrite opening_at_eq. destruct pair.
  - assert (So : forall ko, In ko os -> snd ko = OPedersen (oval (snd ko)) (omask (snd ko))).
    { intros [j o] I. cbn [snd]. rewrite (S j o I), opening_at_eq. reflexivity. }
    rewrite collect_pedersen_ok, bind_Ok, !map_map in O |- * by exact So. cbn [fst snd] in O |- *.
    change (map (fun x : Z * opening => fst x) os) with (map (@fst Z opening) os) in O |- *. rewrite E, bind_Ok in O |- *.
    rewrite !interpolate_scalar_wsum, !bind_Ok in O |- * by (rewrite ?map_length; auto).
    rewrite (V oval) in O |- * by (intros j o I; rewrite (S j o I), opening_at_eq; reflexivity).
    assert (M : fwsum cs (map (fun e => omask (snd e)) os) = pev mo (from_node_index ix)).
    { rewrite <- (lagrange_fwsum (from_node_index ix) (map fst os) (pev mo) cs F N E) by (apply isp_pev; rewrite map_length; exact (Lm eq_refl)).
      rewrite map_map. f_equal. apply map_ext_in. intros [j o] I. cbn [fst snd]. rewrite (S j o I), opening_at_eq. reflexivity. }
    rewrite M in O |- *. destruct (c_return_if_consistent _ _ _) as [o| | |] eqn:R; try discriminate O. apply return_ok in R. destruct R as [-> _]. reflexivity.
  - assert (So : forall ko, In ko os -> snd ko = OSimple (oval (snd ko))).
    { intros [j o] I. cbn [snd]. rewrite (S j o I), opening_at_eq. reflexivity. }
    rewrite collect_simple_ok, bind_Ok, !map_map in O |- * by exact So. cbn [fst snd] in O |- *.
    change (map (fun x : Z * opening => fst x) os) with (map (@fst Z opening) os) in O |- *. rewrite E, bind_Ok in O |- *.
    rewrite !interpolate_scalar_wsum, !bind_Ok in O |- * by (rewrite ?map_length; auto).
    rewrite (V oval) in O |- * by (intros j o I; rewrite (S j o I), opening_at_eq; reflexivity).
    destruct (c_return_if_consistent _ _ _) as [o| | |] eqn:R; try discriminate O. apply return_ok in R. destruct R as [-> _]. reflexivity.
Qed.
End Reveal.

(** Whoever holds as many openings of every dealing as the threshold computes, with
    the code's own function at node index -1 and no key at all, an opening of the
    transcript's constant term: for resharings the secret key itself. *)
Theorem C92_openings_reveal_the_secret :
  forall (X : Oracles) (HX : oracles_ok X) (GO : Grp) (GL : GrpLaws GO) threshold ds provided op t ad,
  keys_ok ds -> new_transcript threshold ds op = Ok t -> op <> TOther -> 0 < threshold ->
  (forall k d, In (k, d) ds -> kind_ok op (d_cm d) /\ (exists l, d_cm d = CSimple l \/ d_cm d = CPedersen l) /\
     exists os d', zlookup k provided = Some os /\ keys_ok os /\ threshold <= Z.of_nat (length os) /\ d_cm d' = d_cm d /\
       forall j o, In (j, o) os -> exists sk pk, open_dealing d' ad k j sk pk = Ok o) ->
  exists o P, (forall sk pk, from_dealings_and_openings ds provided (tr_commitment t) ad (-1) sk pk = Ok o) /\
    c_constant_term (tr_commitment t) = Ok P /\
    match o with OSimple s => P = mul_by_g s | OPedersen s m => P = pedersen s m | _ => False end.
Proof.
  intros X HX GO GL th ds pr op t ad K T No Hth H.
  destruct (C44_openings_fill_in X HX GO GL th ds pr op t ad (-1) fzero gzero K T No Hth) as [o E].
  - intros k d I. destruct (H k d I) as (A & B & os & d' & -> & C & D & Ec & F). split; [exact A|]. split; [exact B|]. split; [exact C|]. split; [exact D|].
    intros j o J. destruct (F j o J) as (sk & pk & Q). apply decrypt_and_check_sound in Q. rewrite <- Ec. exact Q.
  - pose proof (proj2 (proj2 (C44_combined_opening_sound X GO GL (tr_commitment t) (-1) o)) _ _ _ _ _ E) as C.
    apply opens_constant in C. destruct C as (P & EP & M). exists o, P. split; [|split; assumption].
    intros sk pk. rewrite <- E. apply provided_keyless. intros k d I. destruct (H k d I) as (_ & _ & os & _ & Q & _). eauto.
Qed.
Print Assumptions C92_openings_reveal_the_secret.

(** An honest dealer whose dealing was tampered with on the way (and who is
    therefore blamed, C89) loses their share once enough of the other receivers
    open the tampered dealing, as the complaint procedure has them do. *)
Theorem C92_blamed_dealer_loses_share :
  forall (X : Oracles) (HX : oracles_ok X) (GO : Grp) (GL : GrpLaws GO) sh seed threshold rc dealer ad d i u v ct' os,
  sh <> SOther -> new_dealing sh seed threshold rc dealer ad = Ok d -> tampered i u v (d_ct d) ct' ->
  let d' := mkdealing ct' (d_cm d) (d_proof d) in
  keys_ok os -> threshold <= Z.of_nat (length os) ->
  (forall j o, In (j, o) os -> j <> i /\ 0 <= j /\ exists sk, nth_error rc (Z.to_nat j) = Some (mul_by_g sk) /\ open_dealing d' ad dealer j sk (mul_by_g sk) = Ok o) ->
  match sh with
  | SReshareUnmasked s | SReshareMasked s _ => reconstruct_share d' os (-1) = Ok (OSimple s)
  | STimes l r _ => exists m, reconstruct_share d' os (-1) = Ok (OPedersen (fmul l r) m)
  | _ => exists s m, reconstruct_share d' os (-1) = Ok (OPedersen s m) /\ c_constant_term (d_cm d) = Ok (pedersen s m)
  end.
Proof.
  intros X HX GO GL sh seed th rc k ad d i u v ct' os Hs E T d' K L H.
  destruct (C37_receiver_shares X HX GO GL sh seed th rc k ad d Hs E) as (po & mo & pair & Lp & Hsh & Hc & Ho).
  destruct (new_dealing_inv HX _ _ _ _ _ _ _ Hs E) as [[Hth _] D].
  assert (SH : exists l, d_cm d = (if pair then CPedersen l else CSimple l) /\ length l = Z.to_nat th).
  { exists (pts_of (d_cm d)). destruct sh as [|s|s m|l r rm|]; [| | | |congruence].
    - subst pair. destruct D as (po' & mo' & _ & _ & B & _). destruct (body_pair_cm _ _ _ _ _ _ _ _ B) as (A & B' & _). auto.
    - destruct Hsh as [-> _]. destruct D as (po' & _ & _ & B & _). destruct (body_single_cm _ _ _ _ _ _ _ B) as (A & B' & _). auto.
    - destruct Hsh as [-> _]. destruct D as (po' & z & _ & _ & B & _). destruct (body_single_cm _ _ _ _ _ _ _ B) as (A & B' & _). auto.
    - destruct Hsh as [-> _]. destruct D as (po' & mo' & z & _ & _ & _ & B & _). destruct (body_pair_cm _ _ _ _ _ _ _ _ B) as (A & B' & _). auto. }
  destruct SH as (l & U & Ll). assert (Nl : l <> []) by (intros ->; cbn [length] in Ll; lia).
  assert (Lo : (length l <= length os)%nat) by lia.
  assert (C : forall j o, In (j, o) os -> c_check_opening (d_cm d) j o = Ok true).
  { intros j o I. destruct (H j o I) as (_ & _ & sk & _ & Q). unfold open_dealing in Q. apply decrypt_and_check_sound in Q. exact Q. }
  assert (V : forall j o, In (j, o) os -> o = opening_at po mo pair j).
  { intros j o I. destruct (H j o I) as (Nj & Pj & sk & R & Q). specialize (Ho (Z.to_nat j) sk R). rewrite Z2Nat.id in Ho by exact Pj.
    destruct (C89_tampering_hits_one_receiver X GO GL d ct' i u v T) as (_ & B & _). unfold open_dealing in Q, Ho. cbn [d_ct d_cm d'] in Q.
    rewrite B in Q by assumption. congruence. }
  assert (R : reconstruct_share d' os (-1) = Ok (opening_at po mo pair (-1))).
  { apply (reconstruct_dealt d' os (-1) l); try assumption; try lia.
    - intros ->. destruct Hc as [_ Lm]. lia.
    - assert (UU : d_cm d' = CSimple l \/ d_cm d' = CPedersen l) by (cbn [d_cm d']; destruct pair; auto).
      destruct (C43_reconstruct X GO GL d' l os (-1) UU Nl K Lo C) as (o & -> & _). reflexivity. }
  pose proof (C43_result_opens X GO GL _ _ _ _ R) as O. cbn [d_cm d'] in O. apply opens_constant in O. destruct O as (P & EP & O).
  rewrite opening_at_eq, node_minus_one, !pev_0 in R, O.
  destruct sh as [|s|s m|a b rm|]; [| | | |congruence].
  - subst pair. rewrite O in EP. eauto.
  - destruct Hsh as [-> <-]. exact R.
  - destruct Hsh as [-> <-]. exact R.
  - destruct Hsh as [-> <-]. eauto.
Qed.
Print Assumptions C92_blamed_dealer_loses_share.

(** a resharing of the share 9 among three receivers with threshold 2, tampered
    with for receiver 0; receivers 1 and 2 open it *)
Definition ex_rc : list (@G toyG) := [mul_by_g (of_Z q 21); mul_by_g (of_Z q 22); mul_by_g (of_Z q 23)].
Example C92_ex : exists d ct' os,
  new_dealing (SReshareUnmasked (of_Z q 9)) [1] 2 ex_rc 4 (str "ad") = Ok d /\ tampered 0 fone fzero (d_ct d) ct' /\ keys_ok os /\ 2 <= Z.of_nat (length os) /\
  (forall j o, In (j, o) os -> j <> 0 /\ 0 <= j /\ exists sk, nth_error ex_rc (Z.to_nat j) = Some (mul_by_g sk) /\
     open_dealing (mkdealing ct' (d_cm d) (d_proof d)) (str "ad") 4 j sk (mul_by_g sk) = Ok o).
Proof.
  assert (O : is_ok (new_dealing (SReshareUnmasked (of_Z q 9)) [1] 2 ex_rc 4 (str "ad")) = true) by (vm_compute; reflexivity).
  destruct (new_dealing _ _ _ _ _ _) as [d| | |] eqn:E; try discriminate O.
  assert (Ns : SReshareUnmasked (of_Z q 9) <> SOther) by discriminate.
  destruct (new_dealing_inv toyX_ok _ _ _ _ _ _ _ Ns E) as [_ D].
  destruct D as (po' & _ & _ & (e & p & pf & c & l & Ect & _) & _).
  destruct (C89_tampering_is_possible toyG (d_ct d) 0 fone fzero) as [ct' T]; [rewrite Ect; discriminate|rewrite Ect; reflexivity|lia|].
  destruct (C37_receiver_shares toyX toyX_ok toyG toyL _ _ _ _ _ _ d Ns E) as (po & mo & pair & _ & _ & _ & Ho).
  exists d, ct', [(1, opening_at po mo pair 1); (2, opening_at po mo pair 2)].
  split; [reflexivity|]. split; [exact T|]. split; [split; cbn [map fst]|].
  - repeat constructor; unfold int64_ok; lia.
  - repeat constructor; cbn; intuition discriminate.
  - split; [cbn [length]; lia|].
    destruct (C89_tampering_hits_one_receiver toyX toyG toyL d ct' 0 fone fzero T) as (_ & B & _).
    intros j o [Q|[Q|[]]]; apply pair_equal_spec in Q; destruct Q as [<- <-]; (split; [lia|]; split; [lia|]).
    + exists (of_Z q 22). split; [reflexivity|]. unfold open_dealing. cbn [d_ct d_cm]. rewrite B by lia. apply (Ho 1%nat (of_Z q 22)). reflexivity.
    + exists (of_Z q 23). split; [reflexivity|]. unfold open_dealing. cbn [d_ct d_cm]. rewrite B by lia. apply (Ho 2%nat (of_Z q 23)). reflexivity.
Qed.
(** one random dealing, opened by receivers 0 and 2 *)
Example C92_ex_transcript : exists d t os,
  keys_ok [(4, d)] /\ new_transcript 2 [(4, d)] TRandom = Ok t /\ kind_ok TRandom (d_cm d) /\ (exists l, d_cm d = CPedersen l) /\
  zlookup 4 [(4, os)] = Some os /\ keys_ok os /\ 2 <= Z.of_nat (length os) /\
  (forall j o, In (j, o) os -> exists sk pk, open_dealing d (str "ad") 4 j sk pk = Ok o).
Proof.
  assert (O : match new_dealing SRandom [1] 2 ex_rc 4 (str "ad") with Ok d => is_ok (new_transcript 2 [(4, d)] TRandom) | _ => false end = true) by (vm_compute; reflexivity).
  destruct (new_dealing _ _ _ _ _ _) as [d| | |] eqn:E; try discriminate O.
  destruct (new_transcript _ _ _) as [t| | |] eqn:Et; try discriminate O.
  assert (Ns : SRandom <> SOther) by discriminate.
  destruct (new_dealing_inv toyX_ok _ _ _ _ _ _ _ Ns E) as [_ D].
  destruct D as (po' & mo' & _ & _ & B & _). destruct (body_pair_cm _ _ _ _ _ _ _ _ B) as (U & _ & _).
  destruct (C37_receiver_shares toyX toyX_ok toyG toyL _ _ _ _ _ _ d Ns E) as (po & mo & pair & _ & _ & _ & Ho).
  exists d, t, [(0, opening_at po mo pair 0); (2, opening_at po mo pair 2)].
  split; [split; cbn [map fst]; repeat constructor; unfold int64_ok; try lia; intros []|]. split; [exact Et|].
  split; [unfold kind_ok; cbn [op_single]; rewrite U; reflexivity|]. split; [eexists; exact U|]. split; [reflexivity|].
  split; [split; cbn [map fst]|].
  - repeat constructor; unfold int64_ok; lia.
  - repeat constructor; cbn; intuition discriminate.
  - split; [cbn [length]; lia|].
    intros j o [Q|[Q|[]]]; apply pair_equal_spec in Q; destruct Q as [<- <-].
    + exists (of_Z q 21), (mul_by_g (of_Z q 21)). apply (Ho 0%nat (of_Z q 21)). reflexivity.
    + exists (of_Z q 23), (mul_by_g (of_Z q 23)). apply (Ho 2%nat (of_Z q 23)). reflexivity.
Qed.
