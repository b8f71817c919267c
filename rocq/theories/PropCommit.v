(** Properties C10, C29 to C33. *)
From Coq Require Import ZArith Lia Bool String List Ring Field.
From Verif Require Import Base BaseFacts Zmod Fields ModelScalar ProofScalar ModelXmd ModelRo ModelPoly SpecPoly ProofPoly
  ModelGroup GroupFacts SpecGroup ModelCommit ProofCommit.
From Verif Require Import Toy.
Import ListNotations.
Open Scope Z_scope.

(** C10 *)
Theorem C10_mul_by_node_index : forall (GO : Grp) (GL : GrpLaws GO) P i,
  mul_by_node_index P i = smul (of_Z q ((i + 1) mod 2^64)) P /\
  mul_by_node_index P i = smul (from_node_index i) P.
Proof.
  intros GO GL P i. rewrite mul_by_node_index_spec. split; [|reflexivity]. rewrite node_x_eq. reflexivity.
Qed.
Print Assumptions C10_mul_by_node_index.

(** C29 *)
Theorem C29_simple_exact : forall (GO : Grp) (GL : GrpLaws GO) po num, 0 < num -> coeffs_below (Z.to_nat num) po ->
  exists c, simple_create po num = Ok c /\
    forall i v, c_check_opening c i (OSimple v) = Ok (feqb v (spec_eval po (node_x i))).
Proof.
  intros GO GL po num Hn Hp. destruct (simple_create_spec po num Hp ltac:(lia)) as (l & E & Hl & Hc).
  exists (CSimple l). split; [exact E|]. intros i v. apply check_simple; [|exact Hc].
  intros ->. cbn [length] in Hl. lia.
Qed.
Theorem C29_pedersen_genuine : forall (GO : Grp) (GL : GrpLaws GO) po mo num, 0 < num ->
  coeffs_below (Z.to_nat num) po -> coeffs_below (Z.to_nat num) mo ->
  exists c, pedersen_create po mo num = Ok c /\
    forall i, c_check_opening c i (OPedersen (spec_eval po (node_x i)) (spec_eval mo (node_x i))) = Ok true.
Proof.
  intros GO GL po mo num Hn Hp Hm. destruct (pedersen_create_spec po mo num Hp Hm ltac:(lia)) as (l & E & Hl & Hc).
  exists (CPedersen l). split; [exact E|]. intros i. rewrite (check_pedersen l po mo) by
    (try exact Hc; intros ->; cbn [length] in Hl; lia).
  rewrite geqb_refl. reflexivity.
Qed.
(** binding, for any commitment whatsoever *)
Theorem C29_pedersen_binding : forall (GO : Grp) (GL : GrpLaws GO) c i v m v' m',
  c_check_opening c i (OPedersen v m) = Ok true -> c_check_opening c i (OPedersen v' m') = Ok true ->
  (v, m) <> (v', m') -> m <> m' /\ genH = smul (fdiv (fsub v v') (fsub m' m)) genG.
Proof. intros GO GL. exact check_pedersen_binding. Qed.
Theorem C29_simple_binding : forall (GO : Grp) (GL : GrpLaws GO) c i v v',
  c_check_opening c i (OSimple v) = Ok true -> c_check_opening c i (OSimple v') = Ok true -> v = v'.
Proof. intros GO GL. exact check_simple_binding. Qed.
Print Assumptions C29_simple_exact.
Print Assumptions C29_pedersen_genuine.
Print Assumptions C29_pedersen_binding.
Print Assumptions C29_simple_binding.
Example C29_ex : coeffs_below 3 [of_Z q 4; of_Z q 0; of_Z q 9]. Proof. apply coeffs_below_length. reflexivity. Qed.
(** two openings of one commitment, in the toy group where log H is known *)
Example C29_ex_binding : exists c v m v' m', (v, m) <> (v', m') /\
  c_check_opening c 1 (OPedersen v m) = Ok true /\ c_check_opening c 1 (OPedersen v' m') = Ok true.
Proof.
  exists (CPedersen [genG; genH; genG]), (of_Z q 5), (of_Z q 2), (fadd (of_Z q 5) (of_Z q 1000003)), (fsub (of_Z q 2) (of_Z q 3)).
  split; [|split; vm_compute; reflexivity].
  intros H. apply (f_equal fst) in H. apply (f_equal fv) in H. vm_compute in H. discriminate.
Qed.

(** C30: when creation succeeds, what it commits to, and the refutation *)
Theorem C30_create_condition : forall (GO : Grp) po num, 0 <= num ->
  (simple_create po num = Err <-> num < Z.of_nat (length (filter (fun c => negb (feqb c fzero)) po))) /\
  (forall c, simple_create po num = Ok c -> exists l, c = CSimple l /\ length l = Z.to_nat num /\
     forall i, (i < Z.to_nat num)%nat -> nth i l gzero = smul (nth i po fzero) genG).
Proof.
  intros GO po num Hn. rewrite simple_create_eq. split.
  - destruct (Z.ltb_spec num (Z.of_nat (length (filter (fun c => negb (feqb c fzero)) po)))); split; intros; try discriminate; try lia; reflexivity.
  - intros c. destruct (Z.ltb _ _); [discriminate|]. intros H. injection H as <-. eexists. split; [reflexivity|].
    unfold trunc_points. rewrite map_length, seq_length. split; [reflexivity|].
    intros i Hi. rewrite nth_map_seq by assumption. reflexivity.
Qed.
Theorem C30_own_opening_truncated : forall (GO : Grp) (GL : GrpLaws GO) po num c i, 0 < num -> simple_create po num = Ok c ->
  c_check_opening c i (OSimple (spec_eval po (node_x i))) =
  Ok (feqb (fmul (fpow (node_x i) num) (spec_eval (skipn (Z.to_nat num) po) (node_x i))) fzero).
Proof.
  intros GO GL po num c i Hn. rewrite simple_create_eq. destruct (Z.ltb _ _); [discriminate|].
  intros H. injection H as <-. rewrite check_truncated by lia. rewrite Z2Nat.id by lia. reflexivity.
Qed.
(** for every group: a polynomial of three coefficients accepted for one point,
    whose own share at every node does not open the commitment *)
Theorem C30_long_polynomials_rejected_refuted : forall (GO : Grp) (GL : GrpLaws GO),
  exists po c, nth 2 po fzero <> fzero /\ simple_create po 1 = Ok c /\
    forall i, 0 <= i < 2^63 -> c_check_opening c i (OSimple (spec_eval po (node_x i))) = Ok false.
Proof.
  intros GO GL. exists [fzero; fzero; fone], (CSimple [smul fzero genG]).
  assert (N1 : (fone : Fq) <> fzero) by (intros H; apply (f_equal fv) in H; vm_compute in H; discriminate).
  split; [exact N1|]. split; [reflexivity|]. intros i Hi.
  rewrite (C30_own_opening_truncated GO GL [fzero; fzero; fone] 1) by (lia || reflexivity).
  f_equal. apply feqb_neq. change (Z.to_nat 1) with 1%nat. cbn [skipn].
  assert (N : node_x i <> fzero).
  { intros H. apply (f_equal fv) in H. unfold node_x in H. rewrite fv_of_Z in H.
    rewrite (Z.mod_small (i + 1)) in H by lia. rewrite Z.mod_small in H by (unfold q; lia). change (fv (fzero : Fq)) with 0 in H. lia. }
  apply fmul_neq0; [exact q_prime| |].
  - apply fpow_neq0; [exact q_prime|exact N].
  - rewrite pev_spec. cbn [pev]. assert (E : fadd fzero (fmul (node_x i) (fadd fone (fmul (node_x i) fzero))) = node_x i) by ring.
    rewrite E. exact N.
Qed.
Print Assumptions C30_create_condition.
Print Assumptions C30_own_opening_truncated.
Print Assumptions C30_long_polynomials_rejected_refuted.

(** C31 *)
Theorem C31_pedersen_never_decodes : forall v m c, opening_serialize (OPedersen v m) = Ok c ->
  opening_deserialize c = Ok (DSimple (Some v)).
Proof. intros v m c H. exact (opening_roundtrip _ _ H). Qed.
Theorem C31_simple_decodes_to_pointer : forall v c, opening_serialize (OSimple v) = Ok c ->
  exists d, opening_deserialize c = Ok d /\ opening_of_decoded d = OSimplePtr v.
Proof. intros v c H. eexists. split; [exact (opening_roundtrip _ _ H)|reflexivity]. Qed.
Theorem C31_decoded_openings_unusable : forall (GO : Grp) enc d c i,
  opening_deserialize enc = Ok d -> c_check_opening c i (opening_of_decoded d) = Panic.
Proof. intros GO enc d c i _. apply check_decoded_panics. Qed.
(** Spec: what a decoder that ignores errors gets from an element with a body
    of up to 32 bytes: the number, or zero if it is too large *)
Definition loosely_read (body : bytes) : Fq := if be_val body <? q then of_Z q (be_val body) else fzero.
(** errors in the elements of a stored opening are not reported: elements that
    are too large are read as zero, missing ones become nil, further ones are
    skipped; and only an empty byte string makes the decoder panic *)
Theorem C31_damaged_elements_not_reported : forall t a u b rest, (List.length a <= 32)%nat -> (List.length b <= 32)%nat ->
  opening_deserialize (mkocbor 1 ct_pedersen ((t :: a) :: (u :: b) :: rest)) = Ok (DPedersen (Some (loosely_read a)) (Some (loosely_read b))) /\
  opening_deserialize (mkocbor 1 ct_pedersen [t :: a]) = Ok (DPedersen (Some (loosely_read a)) None) /\
  opening_deserialize (mkocbor 1 ct_pedersen []) = Ok (DPedersen None None) /\
  opening_deserialize (mkocbor 1 ct_simple ((t :: a) :: rest)) = Ok (DSimple (Some (loosely_read a))) /\
  opening_deserialize (mkocbor 1 ct_simple []) = Ok (DSimple None).
Proof.
  intros t a u b rest La Lb. unfold opening_deserialize. cbn [oc_type oc_curve oc_msg]. unfold slot. cbn [nth_error]. unfold scalar_of_cbor.
  rewrite !k256_deserialize_spec. replace (List.length a - 32)%nat with 0%nat by lia. replace (List.length b - 32)%nat with 0%nat by lia. cbn [skipn]. unfold loosely_read. destruct (be_val a <? q), (be_val b <? q); repeat split; reflexivity.
Qed.
Theorem C31_decoding_panics_iff : forall c, opening_deserialize c = Panic <->
  oc_curve c = 1 /\ (oc_type c = ct_simple \/ oc_type c = ct_pedersen) /\
  (nth_error (oc_msg c) 0 = Some [] \/ (oc_type c = ct_pedersen /\ nth_error (oc_msg c) 1 = Some [])).
Proof.
  intros c.
  assert (S : forall l i, (slot l i = Panic /\ nth_error l i = Some []) \/ (exists v, slot l i = Ok v) /\ nth_error l i <> Some []).
  { intros l i. unfold slot. destruct (nth_error l i) as [[|t b]|]; [left; auto| |right; split; [eauto|discriminate]].
    right. split; [|discriminate]. cbn [scalar_of_cbor]. rewrite k256_deserialize_spec. destruct (_ <? q); eauto. }
  assert (N : ct_simple <> ct_pedersen) by discriminate.
  unfold opening_deserialize. destruct (Z.eqb_spec (oc_curve c) 1) as [Ec|Ec].
  2: { rewrite !andb_false_r. split; [discriminate|intros [E _]; contradiction]. }
  rewrite !andb_true_r. destruct (Z.eqb_spec (oc_type c) ct_simple) as [Es|Es].
  { destruct (S (oc_msg c) 0%nat) as [[-> E]|[[v ->] E]]; cbn [bind].
    - split; auto.
    - split; [discriminate|]. intros (_ & _ & [Q|[Q _]]); [contradiction|]. rewrite Es in Q. contradiction. }
  destruct (Z.eqb_spec (oc_type c) ct_pedersen) as [Ep|Ep].
  2: { split; [discriminate|]. intros (_ & [Q|Q] & _); contradiction. }
  destruct (S (oc_msg c) 0%nat) as [[-> E]|[[v ->] E]]; cbn [bind]; [split; auto|].
  destruct (S (oc_msg c) 1%nat) as [[-> F]|[[w ->] F]]; cbn [bind]; [split; auto|].
  split; [discriminate|]. intros (_ & _ & [Q|[_ Q]]); contradiction.
Qed.
Print Assumptions C31_pedersen_never_decodes.
Print Assumptions C31_simple_decodes_to_pointer.
Print Assumptions C31_decoded_openings_unusable.
Print Assumptions C31_damaged_elements_not_reported.
Print Assumptions C31_decoding_panics_iff.
Example C31_ex : exists c, opening_serialize (OPedersen (of_Z q 5) (of_Z q 6)) = Ok c /\ opening_deserialize c = Ok (DSimple (Some (of_Z q 5))).
Proof. eexists. split; [reflexivity|]. apply (C31_pedersen_never_decodes _ (of_Z q 6)). reflexivity. Qed.
(** the order q itself is read as zero *)
Example C31_ex_damaged : opening_deserialize (mkocbor 1 ct_pedersen [1 :: be_bytes 32 q]) = Ok (DPedersen (Some fzero) None).
Proof.
  destruct (C31_damaged_elements_not_reported 1 (be_bytes 32 q) 1 (be_bytes 32 q) []) as (_ & E & _); [rewrite be_bytes_length; lia|rewrite be_bytes_length; lia|].
  rewrite E. reflexivity.
Qed.

(** C32 *)
Theorem C32_stable_injective : forall (GO : Grp) (GL : GrpLaws GO) c d r,
  c_stable c = Ok r -> c_stable d = Ok r -> unwrap c = unwrap d.
Proof. intros GO GL. exact stable_inj. Qed.
Theorem C32_stable_defined : forall (GO : Grp) c, (exists r, c_stable c = Ok r) <->
  exists P l, unwrap c = CSimple (P :: l) \/ unwrap c = CPedersen (P :: l).
Proof.
  intros GO c. unfold c_stable, c_curve, c_points. split.
  - intros [r H]. destruct (unwrap c) as [l|l|?|?|]; cbn [bind] in H; try discriminate; destruct l; try discriminate; eauto.
  - intros (P & l & [-> | ->]); cbn [bind]; eauto.
Qed.
Print Assumptions C32_stable_injective.
Print Assumptions C32_stable_defined.

(** C33 *)
Theorem C33_compare_constant_refuted : forall (GO : Grp) (t o : transcript) r,
  tr_compare t o = Ok r -> r = 0.
Proof.
  intros GO t o r. rewrite tr_compare_const. destruct (c_stable (tr_commitment t)); cbn [bind]; congruence.
Qed.
Theorem C33_compare_ignores_other : forall (GO : Grp) (t o o' : transcript), tr_compare t o = tr_compare t o'.
Proof. intros GO t o o'. rewrite !tr_compare_const. reflexivity. Qed.
Theorem C33_equal_ignores_kind : forall (GO : Grp) (GL : GrpLaws GO) c d,
  c_equal c d = Ok true <-> exists l, c_points c = Ok l /\ c_points d = Ok l.
Proof. intros GO GL. exact c_equal_iff. Qed.
Print Assumptions C33_compare_constant_refuted.
Print Assumptions C33_compare_ignores_other.
Print Assumptions C33_equal_ignores_kind.
(** different transcripts compare as equal, different kinds as Equal *)
Example C33_ex : tr_compare (mktranscript (CSimple [genG])) (mktranscript (CPedersen [genH; genG])) = Ok 0 /\
  c_equal (CSimple [genG]) (CPedersen [genG]) = Ok true.
Proof. split; vm_compute; reflexivity. Qed.
