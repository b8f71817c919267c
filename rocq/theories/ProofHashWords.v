(** The word operations of ModelHashes are those of SpecHash. *)
From Coq Require Import ZArith Lia List Bool.
From Verif Require Import Base BaseFacts ModelXmd ModelHashes SpecHash.
Import ListNotations.
Open Scope Z_scope.

Lemma word_bit n : forall f i, 0 <= i -> Z.testbit (word n f) i = (i <? Z.of_nat n) && f i.
Proof.
  induction n as [|n IH]; intros f i Hi.
  - cbn [word]. rewrite Z.testbit_0_l. destruct (Z.ltb_spec i (Z.of_nat 0)); [lia|reflexivity].
  - cbn [word]. destruct (Z.eq_dec i 0) as [->|N].
    + rewrite Z.testbit_0_r. destruct (Z.ltb_spec 0 (Z.of_nat (S n))); [reflexivity|lia].
    + replace i with (Z.succ (i - 1)) at 1 by lia. rewrite Z.testbit_succ_r by lia. rewrite IH by lia.
      replace (i - 1 + 1) with i by lia. f_equal. destruct (Z.ltb_spec (i - 1) (Z.of_nat n)), (Z.ltb_spec i (Z.of_nat (S n))); lia.
Qed.
Lemma word_range n : forall f, 0 <= word n f < 2 ^ Z.of_nat n.
Proof.
  induction n as [|n IH]; intros f; [cbn; lia|]. cbn [word]. specialize (IH (fun i => f (i + 1))).
  rewrite Nat2Z.inj_succ, Z.pow_succ_r by lia. destruct (f 0); cbn [Z.b2z]; lia.
Qed.
Lemma word_ext n : forall f g, (forall i, 0 <= i < Z.of_nat n -> f i = g i) -> word n f = word n g.
Proof.
  intros f g H. apply Z.bits_inj'. intros i Hi. rewrite !word_bit by lia.
  destruct (Z.ltb_spec i (Z.of_nat n)); [cbn; apply H; lia|reflexivity].
Qed.
(** a number in range is determined by its bits *)
Lemma high_bits w x i : 0 <= x < 2 ^ w -> 0 <= w <= i -> Z.testbit x i = false.
Proof.
  intros H Hw. rewrite <- (Z.mod_small x (2 ^ w)) by exact H. apply Z.mod_pow2_bits_high. lia.
Qed.
Lemma word_intro n x f : (forall i, 0 <= i < Z.of_nat n -> Z.testbit x i = f i) -> (forall i, Z.of_nat n <= i -> Z.testbit x i = false) ->
  x = word n f.
Proof.
  intros H Hh. apply Z.bits_inj'. intros i Hi. rewrite word_bit by lia.
  destruct (Z.ltb_spec i (Z.of_nat n)); cbn; [apply H; lia|apply Hh; lia].
Qed.
Lemma wadd_mod w a b : 0 <= w -> wadd (Z.ones w) a b = (a + b) mod 2 ^ w.
Proof. intros H. unfold wadd. apply Z.land_ones. exact H. Qed.
Lemma rotr_bit w x n i : 0 < n < w -> 0 <= x < 2 ^ w -> 0 <= i ->
  Z.testbit (rotr w (Z.ones w) x n) i = (i <? w) && Z.testbit x ((i + n) mod w).
Proof.
  intros Hn Hx Hi. unfold rotr. rewrite Z.lor_spec, Z.land_spec, Z.shiftr_spec by lia.
  rewrite Z.shiftl_spec by lia. rewrite Z.testbit_ones by lia.
  destruct (Z.ltb_spec i w) as [L|L].
  - replace (0 <=? i) with true by (symmetry; apply Z.leb_le; lia). cbn [andb]. rewrite andb_true_r.
    destruct (Z.lt_ge_cases (i + n) w) as [A|A].
    + rewrite (Z.mod_small (i + n)) by lia. rewrite (Z.testbit_neg_r x (i - (w - n))) by lia. apply orb_false_r.
    + replace ((i + n) mod w) with (i - (w - n)).
      2:{ symmetry. replace (i + n) with (i - (w - n) + 1 * w) by lia. rewrite Z.mod_add by lia. apply Z.mod_small. lia. }
      rewrite (high_bits w x (i + n)) by lia. reflexivity.
  - rewrite andb_false_r, andb_false_r, orb_false_r. apply (high_bits w); lia.
Qed.
Lemma rotl_bit x n i : 0 < n < 32 -> 0 <= x < 2 ^ 32 -> 0 <= i ->
  Z.testbit (rotl32 x n) i = (i <? 32) && Z.testbit x ((i - n) mod 32).
Proof.
  intros Hn Hx Hi. unfold rotl32, m32. rewrite Z.lor_spec, Z.land_spec, Z.shiftr_spec by lia.
  rewrite Z.shiftl_spec by lia. rewrite Z.testbit_ones by lia.
  destruct (Z.ltb_spec i 32) as [L|L].
  - replace (0 <=? i) with true by (symmetry; apply Z.leb_le; lia). cbn [andb]. rewrite andb_true_r.
    destruct (Z.lt_ge_cases i n) as [A|A].
    + rewrite (Z.testbit_neg_r x (i - n)) by lia. cbn [orb]. f_equal.
      replace (i - n) with (i + (32 - n) + (-1) * 32) by lia. rewrite Z.mod_add by lia. symmetry. apply Z.mod_small. lia.
    + rewrite (Z.mod_small (i - n)) by lia. rewrite (high_bits 32 x (i + (32 - n))) by lia. apply orb_false_r.
  - rewrite !andb_false_r. cbn [andb orb]. apply (high_bits 32); lia.
Qed.
Lemma rotl_spec x n : 0 < n < 32 -> 0 <= x < 2 ^ 32 -> rotl32 x n = rol x n.
Proof.
  intros Hn Hx. unfold rol. apply word_intro; intros i Hi; rewrite rotl_bit by lia.
  - destruct (Z.ltb_spec i 32); [reflexivity|lia].
  - destruct (Z.ltb_spec i 32); [lia|reflexivity].
Qed.
Lemma wxor_spec x y : 0 <= x < 2 ^ 32 -> 0 <= y < 2 ^ 32 -> Z.lxor x y = wxor x y.
Proof.
  intros Hx Hy. unfold wxor, bit. apply word_intro; intros i Hi; rewrite Z.lxor_spec; [reflexivity|].
  rewrite (high_bits 32 x i), (high_bits 32 y i) by lia. reflexivity.
Qed.

Section Sha.
Context (P : sha_par) (A : hash_alg).
(** the parameters agree, rotations are smaller than words *)
Definition rot_ok (r : Z * Z * Z) : Prop := let '(a, b, c) := r in 0 < a < sp_w P /\ 0 < b < sp_w P /\ 0 < c < sp_w P.
Context (Ew : sp_w P = Z.of_nat (ha_w A)) (Ww : 0 < sp_w P).
Definition wd (x : Z) : Prop := 0 <= x < 2 ^ sp_w P.
Lemma ch_spec x y z : wd x -> sha_ch (sha_mask P) x y z = f_ch A x y z.
Proof.
  intros Hx. unfold f_ch, sha_ch, sha_mask, bit. apply word_intro; intros i Hi;
    rewrite Z.lxor_spec, !Z.land_spec, Z.lxor_spec, Z.testbit_ones by lia.
  - replace (0 <=? i) with true by (symmetry; apply Z.leb_le; lia). rewrite (proj2 (Z.ltb_lt i (sp_w P))) by lia.
    destruct (Z.testbit x i), (Z.testbit y i), (Z.testbit z i); reflexivity.
  - rewrite (high_bits (sp_w P) x i) by (try exact Hx; lia). rewrite (proj2 (Z.ltb_ge i (sp_w P))) by lia. rewrite andb_false_r. reflexivity.
Qed.
Lemma maj_spec x y z : wd x -> wd y -> sha_maj x y z = f_maj A x y z.
Proof.
  intros Hx Hy. unfold f_maj, sha_maj, xor3, bit. apply word_intro; intros i Hi; rewrite !Z.lxor_spec, !Z.land_spec.
  - destruct (Z.testbit x i), (Z.testbit y i), (Z.testbit z i); reflexivity.
  - rewrite (high_bits (sp_w P) x i) by (try exact Hx; lia). rewrite (high_bits (sp_w P) y i) by (try exact Hy; lia). reflexivity.
Qed.
Lemma Sigma_spec r x : rot_ok r -> wd x -> big_sigma P r x = f_Sigma A r x.
Proof.
  destruct r as [[a b] c]. intros (Ha & Hb & Hc) Hx. unfold big_sigma, f_Sigma, xor3, sha_mask, rot_bit, bit. rewrite <- Ew.
  apply word_intro; intros i Hi; rewrite !Z.lxor_spec, !rotr_bit by (try exact Hx; lia);
    destruct (Z.ltb_spec i (sp_w P)); try lia; reflexivity.
Qed.
Lemma sigma_spec r x : rot_ok r -> wd x -> small_sigma P r x = f_sigma A r x.
Proof.
  destruct r as [[a b] c]. intros (Ha & Hb & Hc) Hx. unfold small_sigma, f_sigma, xor3, sha_mask, rot_bit, shr_bit, bit. rewrite <- Ew.
  apply word_intro; intros i Hi; rewrite !Z.lxor_spec, !rotr_bit, Z.shiftr_spec by (try exact Hx; lia);
    destruct (Z.ltb_spec i (sp_w P)); try lia; cbn [andb].
  - destruct (Z.ltb_spec (i + c) (sp_w P)); [reflexivity|]. rewrite (high_bits (sp_w P) x (i + c)) by (try exact Hx; lia). reflexivity.
  - rewrite (high_bits (sp_w P) x (i + c)) by (try exact Hx; lia). reflexivity.
Qed.
Lemma wadd_spec a b : wadd (sha_mask P) a b = (a + b) mod 2 ^ sp_w P.
Proof. apply wadd_mod. lia. Qed.
Lemma wadd_wd a b : wd (wadd (sha_mask P) a b).
Proof. rewrite wadd_spec. apply Z.mod_pos_bound. apply Z.pow_pos_nonneg; lia. Qed.
End Sha.
