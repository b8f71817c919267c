(** ModelHashes computes the ChaCha20 key stream of SpecHash. *)
From Coq Require Import ZArith Lia List Bool.
From Verif Require Import Base BaseFacts ModelXmd ModelHashes SpecHash ProofHashWords.
Import ListNotations.
Open Scope Z_scope.

Definition in32 (x : Z) : Prop := 0 <= x < 2 ^ 32.
Definition ok32s (s : nat -> Z) : Prop := forall j, in32 (s j).
Lemma upd_same s i v : upd s i v i = v.
Proof. unfold upd. rewrite Nat.eqb_refl. reflexivity. Qed.
Lemma upd_other s i v j : j <> i -> upd s i v j = s j.
Proof. intros H. unfold upd. apply Nat.eqb_neq in H. rewrite H. reflexivity. Qed.
Lemma upd_ok s i v : ok32s s -> in32 v -> ok32s (upd s i v).
Proof. intros H V j. unfold upd. destruct (Nat.eqb j i); [exact V|apply H]. Qed.
Lemma mod32 x : in32 (x mod 2 ^ 32).
Proof. apply Z.mod_pos_bound. reflexivity. Qed.
Lemma wadd32 a b : wadd m32 a b = (a + b) mod 2 ^ 32.
Proof. apply wadd_mod. lia. Qed.
Lemma line_spec a b d n s : a <> b -> a <> d -> b <> d -> 0 < n < 32 -> ok32s s ->
  c_line a b d n s a = wadd m32 (s a) (s b) /\
  c_line a b d n s d = rotl32 (Z.lxor (s d) (wadd m32 (s a) (s b))) n /\
  (forall j, j <> a -> j <> d -> c_line a b d n s j = s j) /\ ok32s (c_line a b d n s).
Proof.
  intros ab ad bd Hn H. unfold c_line. cbv zeta. rewrite !upd_same. rewrite (upd_other _ a _ d) by auto. rewrite (upd_other _ d _ a) by auto.
  rewrite ?upd_same. set (v := (s a + s b) mod 2 ^ 32). assert (V : in32 v) by apply mod32.
  assert (Wx : in32 (wxor (s d) v)) by apply word_range.
  split; [|split; [|split]].
  - rewrite !(upd_other _ d _ a) by auto. rewrite upd_same. symmetry. apply wadd32.
  - rewrite wadd32. fold v. rewrite (wxor_spec (s d) v (H d) V). symmetry. apply rotl_spec; [exact Hn|exact Wx].
  - intros j Ja Jd. rewrite !upd_other by auto. reflexivity.
  - repeat apply upd_ok; try assumption. apply word_range.
Qed.
Lemma quarter_spec a b c d s : NoDup [a; b; c; d] -> ok32s s ->
  let q := c_quarter a b c d s in
  quarter_round (s a) (s b) (s c) (s d) = (q a, q b, q c, q d) /\ (forall j, ~ In j [a; b; c; d] -> q j = s j) /\ ok32s q.
Proof.
  intros N H. inversion_clear N as [|? ? Na N1]. inversion_clear N1 as [|? ? Nb N2]. inversion_clear N2 as [|? ? Nc _]. cbn [In] in Na, Nb, Nc.
  cbv zeta. unfold c_quarter.
  destruct (line_spec a b d 16 s) as (A1 & D1 & F1 & O1); try (exact H || intuition congruence || lia). set (s1 := c_line a b d 16 s) in *. clearbody s1.
  destruct (line_spec c d b 12 s1) as (A2 & D2 & F2 & O2); try (exact O1 || intuition congruence || lia). set (s2 := c_line c d b 12 s1) in *. clearbody s2.
  destruct (line_spec a b d 8 s2) as (A3 & D3 & F3 & O3); try (exact O2 || intuition congruence || lia). set (s3 := c_line a b d 8 s2) in *. clearbody s3.
  destruct (line_spec c d b 7 s3) as (A4 & D4 & F4 & O4); try (exact O3 || intuition congruence || lia). set (s4 := c_line c d b 7 s3) in *. clearbody s4.
  split; [|split; [|exact O4]].
  - unfold quarter_round. cbv zeta.
    assert (a4 : s4 a = s3 a) by (apply F4; intuition congruence). assert (d4 : s4 d = s3 d) by (apply F4; intuition congruence).
    assert (c3 : s3 c = s2 c) by (apply F3; intuition congruence). assert (b3 : s3 b = s2 b) by (apply F3; intuition congruence).
    assert (a2 : s2 a = s1 a) by (apply F2; intuition congruence). assert (d2 : s2 d = s1 d) by (apply F2; intuition congruence).
    assert (c1 : s1 c = s c) by (apply F1; intuition congruence). assert (b1 : s1 b = s b) by (apply F1; intuition congruence).
    rewrite <- A1 in D1. rewrite <- A2 in D2. rewrite <- A3 in D3. rewrite <- A4 in D4.
    rewrite <- A1, <- D1, <- c1, <- b1. rewrite <- A2, <- D2, <- a2, <- d2. rewrite <- A3, <- D3, <- c3, <- b3. rewrite <- A4, <- D4, <- a4, <- d4. reflexivity.
  - intros j J. cbn [In] in J. rewrite F4, F3, F2, F1 by intuition congruence. reflexivity.
Qed.
Definition arr (s : nat -> Z) : list Z := map s (seq 0 16).
Ltac nodup := repeat constructor; cbn [In]; intuition discriminate.
Ltac quarter a b c d s H q F O E :=
  destruct (quarter_spec a b c d s ltac:(nodup) H) as (E & F & O); set (q := c_quarter a b c d s) in *; clearbody q.
Lemma double_spec s : ok32s s -> double_round (arr s) = arr (c_inner s) /\ ok32s (c_inner s).
Proof.
  intros H. unfold c_inner. cbv zeta.
  quarter 0%nat 4%nat 8%nat 12%nat s H s1 F1 O1 E1. quarter 1%nat 5%nat 9%nat 13%nat s1 O1 s2 F2 O2 E2.
  quarter 2%nat 6%nat 10%nat 14%nat s2 O2 s3 F3 O3 E3. quarter 3%nat 7%nat 11%nat 15%nat s3 O3 s4 F4 O4 E4.
  quarter 0%nat 5%nat 10%nat 15%nat s4 O4 s5 F5 O5 E5. quarter 1%nat 6%nat 11%nat 12%nat s5 O5 s6 F6 O6 E6.
  quarter 2%nat 7%nat 8%nat 13%nat s6 O6 s7 F7 O7 E7. quarter 3%nat 4%nat 9%nat 14%nat s7 O7 s8 F8 O8 E8.
  split; [|exact O8]. unfold arr. cbn [seq map double_round]. rewrite E1.
  assert (K : forall (u v : nat -> Z) l, (forall j, ~ In j l -> v j = u j) -> forall j, existsb (Nat.eqb j) l = false -> u j = v j).
  { intros u v l F j X. symmetry. apply F. intros I. assert (existsb (Nat.eqb j) l = true) by (apply existsb_exists; exists j; split; [exact I|apply Nat.eqb_refl]). congruence. }
  pose proof (K _ _ _ F1) as G1. pose proof (K _ _ _ F2) as G2. pose proof (K _ _ _ F3) as G3. pose proof (K _ _ _ F4) as G4.
  pose proof (K _ _ _ F5) as G5. pose proof (K _ _ _ F6) as G6. pose proof (K _ _ _ F7) as G7. pose proof (K _ _ _ F8) as G8.
  rewrite (G1 1%nat), (G1 5%nat), (G1 9%nat), (G1 13%nat) by reflexivity. rewrite E2.
  rewrite (G1 2%nat), (G1 6%nat), (G1 10%nat), (G1 14%nat), (G2 2%nat), (G2 6%nat), (G2 10%nat), (G2 14%nat) by reflexivity. rewrite E3.
  rewrite (G1 3%nat), (G1 7%nat), (G1 11%nat), (G1 15%nat), (G2 3%nat), (G2 7%nat), (G2 11%nat), (G2 15%nat),
    (G3 3%nat), (G3 7%nat), (G3 11%nat), (G3 15%nat) by reflexivity. rewrite E4.
  rewrite (G2 0%nat), (G2 4%nat), (G2 8%nat), (G2 12%nat), (G3 0%nat), (G3 4%nat), (G3 8%nat), (G3 12%nat), (G4 0%nat), (G4 4%nat), (G4 8%nat), (G4 12%nat),
    (G3 1%nat), (G3 5%nat), (G3 9%nat), (G3 13%nat), (G4 1%nat), (G4 5%nat), (G4 9%nat), (G4 13%nat),
    (G4 2%nat), (G4 6%nat), (G4 10%nat), (G4 14%nat) by reflexivity.
  rewrite E5. rewrite (G5 1%nat), (G5 6%nat), (G5 11%nat), (G5 12%nat) by reflexivity. rewrite E6.
  rewrite (G5 2%nat), (G5 7%nat), (G5 8%nat), (G5 13%nat), (G6 2%nat), (G6 7%nat), (G6 8%nat), (G6 13%nat) by reflexivity. rewrite E7.
  rewrite (G5 3%nat), (G5 4%nat), (G5 9%nat), (G5 14%nat), (G6 3%nat), (G6 4%nat), (G6 9%nat), (G6 14%nat),
    (G7 3%nat), (G7 4%nat), (G7 9%nat), (G7 14%nat) by reflexivity. rewrite E8.
  rewrite (G6 0%nat), (G6 5%nat), (G6 10%nat), (G6 15%nat), (G7 0%nat), (G7 5%nat), (G7 10%nat), (G7 15%nat), (G8 0%nat), (G8 5%nat), (G8 10%nat), (G8 15%nat),
    (G7 1%nat), (G7 6%nat), (G7 11%nat), (G7 12%nat), (G8 1%nat), (G8 6%nat), (G8 11%nat), (G8 12%nat),
    (G8 2%nat), (G8 7%nat), (G8 8%nat), (G8 13%nat) by reflexivity.
  reflexivity.
Qed.
Lemma rounds_spec n s : ok32s s -> Nat.iter n double_round (arr s) = arr (Nat.iter n c_inner s) /\ ok32s (Nat.iter n c_inner s).
Proof.
  intros H. induction n as [|n [IE IO]]; [split; [reflexivity|exact H]|]. change (double_round (Nat.iter n double_round (arr s)) = arr (c_inner (Nat.iter n c_inner s)) /\ ok32s (c_inner (Nat.iter n c_inner s))). rewrite IE. apply double_spec, IO.
Qed.
Lemma add_state_spec s t : add_state (arr s) (arr t) = arr (fun i => (s i + t i) mod 2 ^ 32).
Proof. unfold arr. cbn [seq map add_state]. rewrite !wadd32. reflexivity. Qed.
Lemma le_val_spec b : le_val b = le_value b.
Proof.
  unfold le_val. rewrite be_val_rev. induction b as [|x b IH]; [reflexivity|]. cbn [Base.le_val le_value fold_right] in *. rewrite IH. reflexivity.
Qed.
Lemma le_value_range b : bytes_ok b -> (length b <= 4)%nat -> in32 (le_value b).
Proof.
  intros H L. rewrite <- le_val_spec. unfold le_val. assert (bytes_ok (rev b)) as R by (apply Forall_rev, H).
  pose proof (be_val_range _ R) as Q. unfold blen in Q. rewrite rev_length in Q. unfold in32.
  assert (256 ^ Z.of_nat (length b) <= 256 ^ 4) by (apply Z.pow_le_mono_r; lia). change (256 ^ 4) with (2 ^ 32) in *. lia.
Qed.
Lemma firstn_skipn_ok n k (b : bytes) : bytes_ok b -> bytes_ok (firstn n (skipn k b)).
Proof.
  intros H. rewrite <- (firstn_skipn k b) in H. apply Forall_app in H. destruct H as [_ H].
  rewrite <- (firstn_skipn n (skipn k b)) in H. apply Forall_app in H. apply H.
Qed.
Lemma start_ok key n : bytes_ok key -> in32 n -> ok32s (c_start key n).
Proof.
  intros H N j. unfold c_start. destruct (Nat.ltb j 4).
  - apply le_value_range; [apply firstn_skipn_ok; repeat constructor; unfold byte_ok; lia|apply firstn_le_length].
  - destruct (Nat.ltb j 12); [apply le_value_range; [apply firstn_skipn_ok, H|apply firstn_le_length]|].
    destruct (Nat.eqb j 12); [exact N|unfold in32; lia].
Qed.
Lemma init_spec key n : in32 n -> chacha_init key n = arr (c_start key n).
Proof.
  intros N. unfold chacha_init, key_word. rewrite Z.mod_small by exact N.
  change (seq 0 8) with [0;1;2;3;4;5;6;7]%nat. cbn [map]. rewrite !le_val_spec. reflexivity.
Qed.
Lemma le_bytes_nth n : forall j x, (j < n)%nat -> nth j (Base.le_bytes n x) 0 = (x / 256 ^ Z.of_nat j) mod 256.
Proof.
  induction n as [|n IH]; intros j x Hj; [lia|]. cbn [Base.le_bytes]. destruct j as [|j].
  - cbn [nth]. rewrite Z.pow_0_r, Z.div_1_r. reflexivity.
  - cbn [nth]. rewrite IH by lia. rewrite Nat2Z.inj_succ, Z.pow_succ_r by lia. rewrite Z.div_div by (try apply Z.pow_pos_nonneg; lia). reflexivity.
Qed.
Lemma concat_nth l : forall i, (i < 4 * length l)%nat ->
  nth i (concat (map (le_bytes 4) l)) 0 = (nth (i / 4) l 0 / 256 ^ Z.of_nat (i mod 4)) mod 256.
Proof.
  assert (EL : forall x, le_bytes 4 x = Base.le_bytes 4 x) by (intros; unfold le_bytes, be_bytes; apply rev_involutive).
  induction l as [|x l IH]; intros i Hi; cbn [length] in Hi; [lia|]. cbn [map concat].
  assert (LL : length (le_bytes 4 x) = 4%nat) by (rewrite EL; apply le_bytes_length).
  destruct (Nat.lt_ge_cases i 4) as [A|A].
  - rewrite app_nth1 by lia. rewrite EL, le_bytes_nth by lia. rewrite Nat.div_small, Nat.mod_small by exact A. reflexivity.
  - rewrite app_nth2 by lia. rewrite LL, IH by lia. set (k := (i - 4)%nat). replace i with (k + 1 * 4)%nat by lia.
    rewrite Nat.div_add, Nat.mod_add by lia. rewrite Nat.add_1_r. reflexivity.
Qed.
Lemma stream_spec key pos : bytes_ok key -> Z.of_nat pos < 2 ^ 38 -> real_keystream key pos = c_stream key pos.
Proof.
  intros Hk Hp. assert (N : in32 (Z.of_nat (pos / 64))).
  { split; [lia|]. rewrite Nat2Z.inj_div. apply Z.div_lt_upper_bound; [lia|]. change (Z.of_nat 64 * 2 ^ 32) with (2 ^ 38). exact Hp. }
  unfold real_keystream, chacha_block, c_stream. cbv zeta. rewrite (init_spec key _ N).
  destruct (rounds_spec 10 _ (start_ok key _ Hk N)) as [E _]. rewrite E, add_state_spec.
  pose proof (Nat.mod_upper_bound pos 64 ltac:(lia)) as M.
  rewrite concat_nth by (unfold arr; rewrite map_length, seq_length; lia).
  assert (Q : (pos mod 64 / 4 < 16)%nat) by (apply Nat.div_lt_upper_bound; lia).
  set (i := (pos mod 64 / 4)%nat) in *. unfold arr. set (f := fun i => _).
  rewrite (nth_indep (map f (seq 0 16)) 0 (f 0%nat)) by (rewrite map_length, seq_length; exact Q).
  rewrite map_nth, seq_nth by exact Q. unfold f. cbn [Nat.add].
  replace (pos mod 64 mod 4)%nat with (pos mod 4)%nat; [reflexivity|].
  change 64%nat with (4 * 16)%nat. rewrite Nat.mod_mul_r by lia. rewrite (Nat.mul_comm 4 (_ mod _)), Nat.mod_add by lia. rewrite Nat.mod_mod by lia. reflexivity.
Qed.
