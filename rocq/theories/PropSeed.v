(** Property C65: seeds and oracle byte strings determine what they were made
    from, unless two explicitly given strings have the same SHA-256 value. *)
From Coq Require Import ZArith Lia Bool List String.
From Verif Require Import Base BaseFacts Zmod Fields ModelScalar ModelXmd SpecXmd ProofXmd ModelRo SpecRo ProofRo ModelPoly ModelGroup GroupFacts ModelCommit ModelZk ModelMega
  ModelDealing ModelComplaint ModelProtocol ProofDecimal ProofPoly ProofOracles.
From Verif Require Import Toy.
Import ListNotations.
Open Scope Z_scope.

(** a collision of the hash, given by its two inputs *)
Definition collides (H : bytes -> bytes) (a b : bytes) : Prop := a <> b /\ H a = H b.
(** RFC 9380 section 5.3.1: the string whose hash is b_1 *)
Definition b1_input (H : bytes -> bytes) (msg dst : bytes) (len : Z) : bytes :=
  b_zero H msg dst len ++ I2OSP 1 1 ++ DST_prime dst.
(** the two places where two runs of expand_message_xmd can collide *)
Definition xmd_collision (H : bytes -> bytes) (msg dst : bytes) (len : Z) (msg' dst' : bytes) (len' : Z) : Prop :=
  collides H (msg_prime msg dst len) (msg_prime msg' dst' len') \/
  collides H (b1_input H msg dst len) (b1_input H msg' dst' len').

Lemma bytes_dec (a b : bytes) : {a = b} + {a <> b}. Proof. apply (list_eq_dec Z.eq_dec). Qed.

Lemma app_same_tail {A} (a b c d : list A) : List.length c = List.length d -> a ++ c = b ++ d -> a = b /\ c = d.
Proof.
  intros L H. apply app_same_length; [|exact H]. apply (f_equal (@List.length A)) in H. rewrite !app_length in H. lia.
Qed.

Lemma dst_prime_inj d d' a a' : blen d <= 255 -> blen d' <= 255 -> a ++ DST_prime d = a' ++ DST_prime d' -> a = a' /\ d = d'.
Proof.
  intros L L' H. unfold DST_prime in H. rewrite !app_assoc in H. apply app_same_tail in H; [|unfold I2OSP; now rewrite !be_bytes_length].
  destruct H as [H E]. pose proof (blen_nonneg d). pose proof (blen_nonneg d').
  assert (blen d = blen d') by (apply (be_bytes_inj 1) in E; [exact E| |]; change (256 ^ Z.of_nat 1) with 256; lia).
  apply app_same_tail in H; [exact H|unfold blen in *; lia].
Qed.

Section S.
Context {X : Oracles} (HX : oracles_ok X).

Lemma effective_len d : blen (effective_dst sha256 d) <= 255.
Proof. unfold effective_dst. destruct (Z.leb_spec (blen d) 255); [assumption|]. unfold blen. rewrite (sha256_len X HX). lia. Qed.

Lemma expand_first msg dst len o : 32 <= len -> expand_message_xmd msg dst len = Ok o ->
  firstn 32 o = sha256 (b1_input sha256 msg (effective_dst sha256 dst) len) /\ len <= 8160.
Proof.
  intros Hl E. rewrite (expand_is_rfc HX) in E by lia. pose proof (rfc_expand_none msg dst len ltac:(lia)) as N.
  unfold rfc_expand in *. destruct (Z.ltb_spec 255 (ell_of len)) as [|L]; [discriminate|].
  injection E as <-. split; [|destruct (Z_le_gt_dec len 8160); [assumption|]; destruct N as [_ N]; discriminate (N ltac:(lia))].
  rewrite firstn_firstn. replace (Nat.min 32 (Z.to_nat len)) with 32%nat by lia.
  assert (1 <= ell_of len) by (unfold ell_of; apply Z.div_le_lower_bound; lia).
  destruct (Z.to_nat (ell_of len)) as [|n] eqn:En; [lia|]. cbn [seq map List.concat b_succ].
  rewrite firstn_app, (sha256_len X HX). rewrite firstn_all2 by (rewrite (sha256_len X HX); lia). cbn [Nat.sub firstn]. apply app_nil_r.
Qed.

Lemma b_equal msg d len msg' d' len' : blen d <= 255 -> blen d' <= 255 -> 0 <= len <= 8160 -> 0 <= len' <= 8160 ->
  sha256 (b1_input sha256 msg d len) = sha256 (b1_input sha256 msg' d' len') ->
  (msg = msg' /\ d = d' /\ len = len') \/ xmd_collision sha256 msg d len msg' d' len'.
Proof.
  intros L L' R R' E. unfold xmd_collision, collides.
  destruct (bytes_dec (b1_input sha256 msg d len) (b1_input sha256 msg' d' len')) as [E1|N1]; [|tauto].
  destruct (bytes_dec (msg_prime msg d len) (msg_prime msg' d' len')) as [E0|N0].
  - left. unfold msg_prime in E0. apply app_same_length in E0 as [_ E0]; [|unfold I2OSP; now rewrite !be_bytes_length].
    rewrite !app_assoc in E0. apply dst_prime_inj in E0 as [E0 Ed]; [|assumption|assumption].
    rewrite <- !app_assoc in E0. apply app_same_tail in E0 as [Em E0]; [|unfold I2OSP; rewrite !app_length, !be_bytes_length; reflexivity].
    apply app_same_length in E0 as [E0 _]; [|unfold I2OSP; now rewrite !be_bytes_length].
    apply (be_bytes_inj 2) in E0; [auto| |]; change (256 ^ Z.of_nat 2) with 65536; lia.
  - right. left. split; [exact N0|]. unfold b1_input in E1. apply app_same_length in E1 as [E1 _]; [exact E1|].
    unfold b_zero. now rewrite !(sha256_len X HX).
Qed.
End S.

(** Two calls that agree on their first 32 output bytes had the same message,
    domain separator and length, or the given strings collide. *)
Theorem C65_expand_binds_its_inputs : forall (X : Oracles) (HX : oracles_ok X) msg dst len msg' dst' len' o o',
  32 <= len -> 32 <= len' ->
  expand_message_xmd msg dst len = Ok o -> expand_message_xmd msg' dst' len' = Ok o' -> firstn 32 o = firstn 32 o' ->
  let d := effective_dst sha256 dst in let d' := effective_dst sha256 dst' in
  (msg = msg' /\ d = d' /\ len = len') \/ xmd_collision sha256 msg d len msg' d' len'.
Proof.
  intros X HX msg dst len msg' dst' len' o o' Hl Hl' E E' F d d'.
  destruct (expand_first HX _ _ _ _ Hl E) as [F1 R]. destruct (expand_first HX _ _ _ _ Hl' E') as [F2 R'].
  rewrite F1, F2 in F. apply (b_equal HX) in F; [exact F| | | |]; try apply (effective_len HX); lia.
Qed.
Print Assumptions C65_expand_binds_its_inputs.

(** What agreement of the effective domain separators means.  Long ones are
    hashed first; the last case is the ambiguity RFC 9380 leaves. *)
Theorem C65_domain_separators : forall (X : Oracles) (HX : oracles_ok X) dst dst',
  effective_dst sha256 dst = effective_dst sha256 dst' ->
  let long := fun d => str "H2C-OVERSIZE-DST-" ++ d in
  dst = dst' \/
  (255 < blen dst /\ 255 < blen dst' /\ collides sha256 (long dst) (long dst')) \/
  (blen dst = 32 /\ 255 < blen dst' /\ dst = sha256 (long dst')) \/
  (blen dst' = 32 /\ 255 < blen dst /\ dst' = sha256 (long dst)).
Proof.
  intros X HX d d' E long. unfold effective_dst in E. fold (long d) (long d') in E.
  assert (L : forall m, blen (sha256 m) = 32) by (intro m; unfold blen; rewrite (sha256_len X HX); reflexivity).
  destruct (Z.leb_spec (blen d) 255), (Z.leb_spec (blen d') 255).
  - auto.
  - right. right. left. split; [rewrite E; apply L|]. auto.
  - right. right. right. split; [rewrite <- E; apply L|]. auto.
  - destruct (bytes_dec d d') as [|N]; [auto|]. right. left. split; [lia|]. split; [lia|]. split; [|exact E].
    intro H1. apply N. unfold long in H1. apply app_inv_head in H1. exact H1.
Qed.
Print Assumptions C65_domain_separators.

(** Seeds, hence everything drawn from them *)
Theorem C65_seeds_bind : forall (X : Oracles) (HX : oracles_ok X) input dst input' dst' s,
  blen dst <= 255 -> blen dst' <= 255 ->
  new_seed input dst = Ok s -> new_seed input' dst' = Ok s ->
  (input = input' /\ dst = dst') \/ xmd_collision sha256 input dst 32 input' dst' 32.
Proof.
  intros X HX i d i' d' s L L' E E'. unfold new_seed in *.
  destruct (expand_message_xmd i d 32) as [o| | |] eqn:F; try discriminate.
  destruct (expand_message_xmd i' d' 32) as [o'| | |] eqn:F'; try discriminate.
  assert (C : forall m e b, expand_message_xmd m e 32 = Ok b -> copy_into 32 b = firstn 32 b).
  { intros m e b Hb. apply (expand_length HX) in Hb. unfold copy_into.
    rewrite Hb. change (32 - Z.to_nat 32)%nat with 0%nat. cbn [repeat]. apply app_nil_r. }
  injection E as E. injection E' as E'. rewrite (C _ _ _ F) in E. rewrite (C _ _ _ F') in E'.
  destruct (C65_expand_binds_its_inputs X HX i d 32 i' d' 32 o o' ltac:(lia) ltac:(lia) F F' ltac:(congruence)) as [(A & B & _)|A];
    unfold effective_dst in *; destruct (Z.leb_spec (blen d) 255), (Z.leb_spec (blen d') 255); try lia; auto.
Qed.
Print Assumptions C65_seeds_bind.

(** Byte strings of random oracles *)
Theorem C65_oracle_strings_bind : forall (X : Oracles) (HX : oracles_ok X) dst calls len dst' calls' len' o o',
  blen dst <= 255 -> blen dst' <= 255 -> 32 <= len -> 32 <= len' ->
  ro_output_bytes (run (new_ro dst) calls) len = Ok o -> ro_output_bytes (run (new_ro dst') calls') len' = Ok o' ->
  firstn 32 o = firstn 32 o' ->
  ((forall name, content calls name = content calls' name) /\ dst = dst' /\ len = len') \/
  exists m m', ro_form (run (new_ro dst) calls) = Ok m /\ ro_form (run (new_ro dst') calls') = Ok m' /\
    xmd_collision sha256 m dst len m' dst' len'.
Proof.
  intros X HX d l n d' l' n' o o' L L' N N' E E' F. unfold ro_output_bytes in E, E'. rewrite run_dst in E, E'. cbn [new_ro ro_dst] in E, E'.
  destruct (ro_form (run (new_ro d) l)) as [m| | |] eqn:Fm; try discriminate. cbn [bind] in E.
  destruct (ro_form (run (new_ro d') l')) as [m'| | |] eqn:Fm'; try discriminate. cbn [bind] in E'.
  destruct (C65_expand_binds_its_inputs X HX _ _ _ _ _ _ _ _ N N' E E' F) as [(A & B & C)|A];
    unfold effective_dst in *; destruct (Z.leb_spec (blen d) 255), (Z.leb_spec (blen d') 255); try lia.
  - left. split; [|auto]. apply (ro_form_eq_iff d d'). congruence.
  - right. exists m, m'. auto.
Qed.
Print Assumptions C65_oracle_strings_bind.

(** Everything a seed is derived for (dealings/dealings.go:66-114,
    mega/mega.go:67-74, complaints/complaints.go:29, testutils) *)
Inductive purpose :=
| Polynomials | MegaEncrypt | EqualOpenings | Product | Ephemeral (t : mtype) | PopProof (t : mtype)
| ComplaintAgainst (dealer : Z) | Round (n : Z) | ComplaintOf (receiver : Z) | OpeningRng
| FromBytes | FromRng.
Definition separator (u : purpose) : bytes :=
  match u with
  | Polynomials => poly_dst
  | MegaEncrypt => mega_dst
  | EqualOpenings => eqo_dst | Product => prod_dst
  | Ephemeral t => eph_dst t | PopProof t => pop_proof_dst t
  | ComplaintAgainst i => complaint_dst i | Round n => round_dst n | ComplaintOf i => receiver_dst i
  | OpeningRng => opening_rng_dst
  | FromBytes => from_bytes_dst | FromRng => from_rng_dst
  end.
Definition int64 (z : Z) : Prop := - 2 ^ 63 <= z < 2 ^ 63.
Definition purpose_ok (u : purpose) : Prop :=
  match u with ComplaintAgainst i | Round i | ComplaintOf i => int64 i | _ => True end.

Lemma separator_len u : purpose_ok u -> blen (separator u) <= 255.
Proof.
  assert (A : forall s i, int64 i -> blen (str s) <= 100 -> blen (str s ++ decimal i) <= 255).
  { intros s i H L. rewrite blen_app. pose proof (decimal_len i). unfold int64 in H. lia. }
  destruct u as [| | | |[]|[]|i|i|i| | |]; intro H; cbn [separator]; try (apply A; [exact H|]); discriminate.
Qed.
Lemma separator_inj u u' : separator u = separator u' -> u = u'.
Proof.
  destruct u as [| | | |[]|[]|i|i|i| | |], u' as [| | | |[]|[]|j|j|j| | |]; cbn [separator]; intro H; try reflexivity;
    try (exfalso; discriminate H); f_equal; apply decimal_inj; unfold complaint_dst, round_dst, receiver_dst in H; apply app_inv_head in H; exact H.
Qed.

(** Two seeds made for different purposes, or for the same purpose from
    different parent seeds, are different, or the given strings collide. *)
Theorem C65_derived_seeds_differ : forall (X : Oracles) (HX : oracles_ok X) parent parent' u u' s,
  purpose_ok u -> purpose_ok u' ->
  seed_derive parent (separator u) = Ok s -> seed_derive parent' (separator u') = Ok s ->
  (parent = parent' /\ u = u') \/ xmd_collision sha256 parent (separator u) 32 parent' (separator u') 32.
Proof.
  intros X HX a a' u u' s O O' E E'. pose proof (separator_len u O). pose proof (separator_len u' O').
  destruct (C65_seeds_bind X HX _ _ _ _ _ H H0 E E') as [(A & B)|A]; [left|auto]. split; [exact A|]. apply separator_inj, B.
Qed.
Print Assumptions C65_derived_seeds_differ.
(** The associated data of complaint proofs binds the parties, for associated
    data of at most 255 bytes *)
Theorem C65_complaint_data_binds : forall (X : Oracles) (HX : oracles_ok X) (GO : Grp) (GL : GrpLaws GO) ad r d pk ad' r' d' pk' a,
  blen ad <= 255 ->
  assoc_data ad r d pk = Ok a -> assoc_data ad' r' d' pk' = Ok a ->
  (ad = ad' /\ u32 r = u32 r' /\ u32 d = u32 d' /\ pk = pk') \/
  exists m m', ro_form (assoc_ro ad r d pk) = Ok m /\ ro_form (assoc_ro ad' r' d' pk') = Ok m' /\
    let dst := str "ic-crypto-tecdsa-complaint-proof-assoc-data" in xmd_collision sha256 m dst 32 m' dst 32.
Proof.
  intros X HX GO GL ad r d pk ad' r' d' pk' a L E E'. unfold assoc_data, ro_output_bytes in *.
  assert (D : forall ad r d pk, ro_dst (assoc_ro ad r d pk) = str "ic-crypto-tecdsa-complaint-proof-assoc-data").
  { clear. intros ad r d pk. unfold assoc_ro, add_point, add_uint32, add_bytes.
    repeat (match goal with |- ro_dst (ro_add_ign ?x ?n ?v ?t) = _ => rewrite (run1_dst x (n, v, t) : ro_dst (ro_add_ign x n v t) = ro_dst x) end).
    reflexivity. }
  rewrite D in E, E'.
  destruct (ro_form (assoc_ro ad r d pk)) as [m| | |] eqn:Fm; try discriminate. cbn [bind] in E.
  destruct (ro_form (assoc_ro ad' r' d' pk')) as [m'| | |] eqn:Fm'; try discriminate. cbn [bind] in E'.
  destruct (C65_expand_binds_its_inputs X HX m _ 32 m' _ 32 a a ltac:(lia) ltac:(lia) E E' eq_refl) as [(A & _)|A].
  - left. apply assoc_form_inj; [exact L|congruence].
  - right. exists m, m'. auto.
Qed.
Print Assumptions C65_complaint_data_binds.

(** the premises are met; the toy hash only sums its input, so here the
    alternative of a collision is the one that holds *)
Example C65_ex_collision : new_seed [1; 2] (separator OpeningRng) = new_seed [2; 1] (separator OpeningRng) /\
  collides sha256 (msg_prime [1; 2] (separator OpeningRng) 32) (msg_prime [2; 1] (separator OpeningRng) 32).
Proof. split; [vm_compute; reflexivity|]. split; [discriminate|vm_compute; reflexivity]. Qed.
Example C65_ex : exists s, seed_derive (repeat 7 32) (separator (ComplaintAgainst 3)) = Ok s /\ purpose_ok (ComplaintAgainst 3) /\
  oracles_ok toyX.
Proof. eexists. split; [vm_compute; reflexivity|]. split; [split; reflexivity || discriminate|exact toyX_ok]. Qed.
Example C65_ex_distinct : separator (ComplaintAgainst 1) <> separator (ComplaintAgainst 11) /\
  separator (Round 12) <> separator (Round (-12)).
Proof. split; discriminate. Qed.
