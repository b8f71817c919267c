(** ModelHashes computes the SHA-2 functions of SpecHash, and SpecHash determines them. *)
From Coq Require Import ZArith Lia List Bool Znumtheory Sorted.
From Verif Require Import Base BaseFacts ModelXmd ModelHashes SpecHash ProofHashWords ProofHashes.
Import ListNotations.
Open Scope Z_scope.

(** ** the constants *)
Definition primes80 : list Z :=
  [2;3;5;7;11;13;17;19;23;29;31;37;41;43;47;53;59;61;67;71;73;79;83;89;97;101;103;107;109;113;127;131;137;139;149;151;157;163;
   167;173;179;181;191;193;197;199;211;223;227;229;233;239;241;251;257;263;269;271;277;281;283;293;307;311;313;317;331;337;347;
   349;353;359;367;373;379;383;389;397;401;409].
Definition isprimeb (n : Z) : bool :=
  (1 <? n) && forallb (fun d => negb (n mod Z.of_nat d =? 0)) (seq 2 (Z.to_nat n - 2)).
Lemma isprimeb_spec n : isprimeb n = true <-> prime n.
Proof.
  rewrite <- prime_alt. unfold isprimeb, prime'. rewrite andb_true_iff, Z.ltb_lt, forallb_forall. split.
  - intros [H1 H]. split; [exact H1|]. intros d Hd [k E].
    assert (In (Z.to_nat d) (seq 2 (Z.to_nat n - 2))) as I by (apply in_seq; lia).
    specialize (H _ I). rewrite Z2Nat.id in H by lia. rewrite E, Z.mod_mul in H by lia. discriminate.
  - intros [H1 H]. split; [exact H1|]. intros d Hd. apply in_seq in Hd. apply negb_true_iff, Z.eqb_neq. intros E.
    apply (H (Z.of_nat d)); [lia|]. apply Z.mod_divide; [lia|exact E].
Qed.
Lemma primes80_check : forallb (fun n => Bool.eqb (isprimeb (Z.of_nat n)) (existsb (Z.eqb (Z.of_nat n)) primes80)) (seq 0 410) = true.
Proof. vm_compute. reflexivity. Qed.
Lemma primes80_spec r : r < 410 -> (prime r <-> In r primes80).
Proof.
  intros H. destruct (Z.lt_ge_cases r 0) as [N|N].
  - split; [intros [L _]; lia|]. intros I. cbn in I. repeat (destruct I as [I|I]; [lia|]). destruct I.
  - pose proof (proj1 (forallb_forall _ _) primes80_check (Z.to_nat r)) as C. cbv beta in C.
    rewrite Z2Nat.id in C by lia. specialize (C ltac:(apply in_seq; lia)). apply eqb_prop in C.
    rewrite <- isprimeb_spec, C, existsb_exists. split; [intros (x & I & E); apply Z.eqb_eq in E; subst; exact I|].
    intros I. exists r. split; [exact I|apply Z.eqb_refl].
Qed.
Lemma primes80_sorted : StronglySorted Z.lt primes80.
Proof. apply Sorted_StronglySorted; [intros x y z; lia|]. repeat constructor. Qed.
Lemma sorted_firstn l : StronglySorted Z.lt l -> forall t, (t < length l)%nat -> forall r,
  In r (firstn t l) <-> In r l /\ r < nth t l 0.
Proof.
  induction 1 as [|a l S IH F]; intros t Ht r; [cbn in Ht; lia|]. destruct t as [|t].
  - cbn [firstn nth]. split; [intros []|]. intros [[->|I] L]; [lia|]. rewrite Forall_forall in F. specialize (F _ I). lia.
  - cbn [firstn nth In]. cbn [length] in Ht. rewrite IH by lia.
    assert (a < nth t l 0) by (rewrite Forall_forall in F; apply F, nth_In; lia).
    split; [intros [->|[I L]]; auto|]. intros [[->|I] L]; auto.
Qed.
Lemma sorted_nodup l : StronglySorted Z.lt l -> NoDup l.
Proof.
  induction 1 as [|a l S IH F]; constructor; [|exact IH]. intros I. rewrite Forall_forall in F. specialize (F _ I). lia.
Qed.
Lemma nodup_firstn (l : list Z) t : NoDup l -> NoDup (firstn t l).
Proof.
  revert t. induction l as [|a l IH]; intros [|t] N; try constructor; inversion N; subst.
  - intros I. apply H1. rewrite <- (firstn_skipn t l). apply in_or_app. auto.
  - apply IH. assumption.
Qed.
Lemma primes80_nth t : (t < 80)%nat -> nth_prime t (nth t primes80 0).
Proof.
  intros H. assert (L : length primes80 = 80%nat) by reflexivity.
  assert (I : In (nth t primes80 0) primes80) by (apply nth_In; lia).
  assert (B : forall r, In r primes80 -> r < 410) by (apply Forall_forall; repeat constructor).
  split; [apply primes80_spec; [apply B|]; exact I|]. exists (firstn t primes80). split; [|split].
  - apply nodup_firstn, sorted_nodup, primes80_sorted.
  - rewrite firstn_length. lia.
  - intros r. rewrite (sorted_firstn _ primes80_sorted) by lia. split; intros [Hr Hl]; split; try exact Hl.
    + apply primes80_spec; [apply B|]; exact Hr.
    + apply primes80_spec; [|exact Hr]. specialize (B _ I). lia.
Qed.
Lemma nth_prime_unique t p p' : nth_prime t p -> nth_prime t p' -> p = p'.
Proof.
  assert (G : forall p p', nth_prime t p -> nth_prime t p' -> ~ p < p').
  { intros a b (Pa & l & N & L & I) (Pb & l' & N' & L' & I') H.
    assert (NoDup (a :: l)) as Na by (constructor; [intros X; apply I in X; lia|exact N]).
    assert (incl (a :: l) l') as J by (intros r [<-|X]; apply I'; [tauto|]; apply I in X; split; [tauto|lia]).
    pose proof (NoDup_incl_length Na J). cbn [length] in *. lia. }
  intros A B. pose proof (G _ _ A B). pose proof (G _ _ B A). lia.
Qed.
Lemma frac_root_unique e w p k k' : 0 < e -> frac_root e w p k -> frac_root e w p k' -> k = k'.
Proof.
  intros He (c & C0 & C & ->) (d & D0 & D & ->). f_equal.
  assert (G : forall x y, 0 <= x -> 0 <= y -> x ^ e <= p * 2 ^ (e * w) < (x + 1) ^ e -> y ^ e <= p * 2 ^ (e * w) < (y + 1) ^ e -> x <= y).
  { intros x y X Y HX HY. assert (x ^ e < (y + 1) ^ e) as Q by lia. apply Z.pow_lt_mono_l_iff in Q; lia. }
  pose proof (G c d C0 D0 C D). pose proof (G d c D0 C0 D C). lia.
Qed.
Definition rootb (e w p k : Z) : bool :=
  (0 <=? k) && (k <? 2 ^ w) &&
  existsb (fun j => let c := k + j * 2 ^ w in (c ^ e <=? p * 2 ^ (e * w)) && (p * 2 ^ (e * w) <? (c + 1) ^ e)) [1;2;3;4;5;6;7].
Lemma rootb_sound e w p k : 0 <= w -> rootb e w p k = true -> frac_root e w p k /\ 0 <= k < 2 ^ w.
Proof.
  intros Hw H. unfold rootb in H. apply andb_prop in H. destruct H as [R H]. apply andb_prop in R. destruct R as [R1 R2].
  apply Z.leb_le in R1. apply Z.ltb_lt in R2. split; [|lia]. apply existsb_exists in H. destruct H as (j & I & H).
  cbv zeta in H. apply andb_prop in H. destruct H as [H1 H2]. apply Z.leb_le in H1. apply Z.ltb_lt in H2.
  assert (0 < 2 ^ w) by (apply Z.pow_pos_nonneg; lia).
  exists (k + j * 2 ^ w). split; [|split; [lia|rewrite Z.mod_add by lia; symmetry; apply Z.mod_small; lia]].
  assert (0 <= j) by (cbn in I; lia). nia.
Qed.
Lemma in_combine_nth (ps ks : list Z) : forall t, (t < length ps)%nat -> (t < length ks)%nat -> In (nth t ps 0, nth t ks 0) (combine ps ks).
Proof.
  revert ks. induction ps as [|p ps IH]; intros [|k ks] t Hp Hk; cbn [length] in *; try lia. destruct t as [|t]; [left; reflexivity|].
  right. exact (IH ks t ltac:(lia) ltac:(lia)).
Qed.
Definition rootsb (e w : Z) (ks : list Z) : bool := forallb (fun x => rootb e w (fst x) (snd x)) (combine primes80 ks).
Lemma rootsb_sound e w ks : 0 <= w -> (length ks <= 80)%nat -> rootsb e w ks = true -> forall t, (t < length ks)%nat ->
  (exists p, nth_prime t p /\ frac_root e w p (nth t ks 0)) /\ 0 <= nth t ks 0 < 2 ^ w.
Proof.
  intros Hw L H t Ht. unfold rootsb in H. rewrite forallb_forall in H.
  assert (Q : In (nth t primes80 0, nth t ks 0) (combine primes80 ks)) by (apply in_combine_nth; [change (length primes80) with 80%nat|]; lia).
  apply H, rootb_sound in Q; [|exact Hw]. destruct Q as [Q R]. split; [|exact R]. exists (nth t primes80 0).
  split; [apply primes80_nth; lia|exact Q].
Qed.

(** ** one block *)
Definition to8 (s : st8) : list Z := let '(a, b, c, d, e, f, g, h) := s in [a; b; c; d; e; f; g; h].
Definition params_agree (P : sha_par) (A : hash_alg) : Prop :=
  sp_w P = Z.of_nat (ha_w A) /\ 0 < sp_w P /\ sp_bytes P = f_bytes A /\ ha_w A = (8 * sp_bytes P)%nat /\
  length (sp_k P) = ha_rounds A /\ (ha_rounds A <= 80)%nat /\ length (sp_h P) = 8%nat /\
  sp_S0 P = ha_S0 A /\ sp_S1 P = ha_S1 A /\ sp_s0 P = ha_s0 A /\ sp_s1 P = ha_s1 A /\
  rot_ok P (sp_S0 P) /\ rot_ok P (sp_S1 P) /\ rot_ok P (sp_s0 P) /\ rot_ok P (sp_s1 P) /\
  rootsb 3 (sp_w P) (sp_k P) = true /\ rootsb 2 (sp_w P) (sp_h P) = true.
Section Sha.
Context (P : sha_par) (A : hash_alg) (HP : params_agree P A).
Notation wd := (wd P).
Let Ew : sp_w P = Z.of_nat (ha_w A). Proof. apply HP. Qed.
Let Ww : 0 < sp_w P. Proof. apply HP. Qed.
Let Eb : sp_bytes P = f_bytes A. Proof. apply HP. Qed.
Let R0 : rot_ok P (sp_S0 P). Proof. apply HP. Qed.
Let R1 : rot_ok P (sp_S1 P). Proof. apply HP. Qed.
Let r0 : rot_ok P (sp_s0 P). Proof. apply HP. Qed.
Let r1 : rot_ok P (sp_s1 P). Proof. apply HP. Qed.
Let E0 : sp_S0 P = ha_S0 A. Proof. apply HP. Qed.
Let E1 : sp_S1 P = ha_S1 A. Proof. apply HP. Qed.
Let e0 : sp_s0 P = ha_s0 A. Proof. apply HP. Qed.
Let e1 : sp_s1 P = ha_s1 A. Proof. apply HP. Qed.

Definition w16 (win : list Z) : Z :=
  wadd (sha_mask P) (wadd (sha_mask P) (wadd (sha_mask P) (small_sigma P (sp_s1 P) (nth 14 win 0)) (nth 9 win 0))
    (small_sigma P (sp_s0 P) (nth 1 win 0))) (nth 0 win 0).
Definition nextw (win : list Z) : list Z := tl win ++ [w16 win].
Lemma mod5 n h s c k v : ((((h + s) mod n + c) mod n + k) mod n + v) mod n = (h + s + c + k + v) mod n.
Proof.
  rewrite (Zplus_mod_idemp_l (h + s)), (Zplus_mod_idemp_l (h + s + c)), (Zplus_mod_idemp_l (h + s + c + k)). reflexivity.
Qed.
Lemma mod4 n a b c d : (((a + b) mod n + c) mod n + d) mod n = (a + b + c + d) mod n.
Proof. rewrite (Zplus_mod_idemp_l (a + b)), (Zplus_mod_idemp_l (a + b + c)). reflexivity. Qed.
Definition mstep (k w0 : Z) (s : list Z) : list Z :=
  match s with
  | [a; b; c; d; e; f; g; h] =>
    let add := wadd (sha_mask P) in
    let t1 := add (add (add (add h (big_sigma P (sp_S1 P) e)) (sha_ch (sha_mask P) e f g)) k) w0 in
    let t2 := add (big_sigma P (sp_S0 P) a) (sha_maj a b c) in
    [add t1 t2; a; b; c; add d t1; e; f; g]
  | _ => s
  end.
Lemma rounds_cons k ks win s : sha_rounds P (k :: ks) win (to8 s) = sha_rounds P ks (nextw win) (mstep k (nth 0 win 0) (to8 s)).
Proof. destruct s as [[[[[[[a b] c] d] e] f] g] h]. reflexivity. Qed.
Definition wd8 (s : st8) : Prop := Forall wd (to8 s).
Lemma mstep_spec k w0 s : wd8 s -> mstep k w0 (to8 s) = to8 (f_step A k w0 s) /\ wd8 (f_step A k w0 s).
Proof.
  destruct s as [[[[[[[a b] c] d] e] f] g] h]. unfold wd8. cbn [to8]. intros H.
  pose proof (Forall_inv H) as Ha. pose proof (Forall_inv (Forall_inv_tail H)) as Hb.
  pose proof (Forall_inv (Forall_inv_tail (Forall_inv_tail H))) as Hc.
  pose proof (Forall_inv (Forall_inv_tail (Forall_inv_tail (Forall_inv_tail (Forall_inv_tail H))))) as He.
  assert (Q : mstep k w0 [a; b; c; d; e; f; g; h] = to8 (f_step A k w0 (a, b, c, d, e, f, g, h))).
  { cbn [mstep f_step to8]. cbv zeta. rewrite <- E0, <- E1. rewrite (Sigma_spec P A Ew _ e R1 He), (Sigma_spec P A Ew _ a R0 Ha).
    rewrite (ch_spec P A Ew Ww e f g He), (maj_spec P A Ew Ww a b c Ha Hb).
    unfold f_add. rewrite <- Ew. rewrite !(wadd_spec P A Ww). rewrite (mod5 _ h _ _ k w0).
    rewrite Zplus_mod_idemp_l, !Zplus_mod_idemp_r. reflexivity. }
  split; [exact Q|]. rewrite <- Q. cbn [mstep]. cbv zeta.
  inversion_clear H as [|? ? _ H1]. inversion_clear H1 as [|? ? _ H2]. inversion_clear H2 as [|? ? _ H3]. inversion_clear H3 as [|? ? _ H4].
  inversion_clear H4 as [|? ? _ H5]. inversion_clear H5 as [|? ? Hf H6]. inversion_clear H6 as [|? ? Hg _].
  repeat (constructor; [first [assumption|exact (wadd_wd P A Ww _ _)]|]). constructor.
Qed.
Section Window.
Context (win0 : list Z) (L0 : length win0 = 16%nat) (F0 : Forall wd win0).
Definition winat (t : nat) : list Z := Nat.iter t nextw win0.
Definition sched (t : nat) : Z := nth 0 (winat t) 0.
Lemma winat_ok t : length (winat t) = 16%nat /\ Forall wd (winat t).
Proof.
  induction t as [|t [IL IF]]; [split; assumption|]. change (winat (S t)) with (nextw (winat t)). unfold nextw. split.
  - rewrite app_length. destruct (winat t); cbn [length tl] in *; lia.
  - apply Forall_app. split; [destruct (winat t); [constructor|exact (Forall_inv_tail IF)]|]. constructor; [exact (wadd_wd P A Ww _ _)|constructor].
Qed.
Lemma winat_nth j : forall t, (j < 16)%nat -> nth j (winat t) 0 = sched (t + j).
Proof.
  induction j as [|j IH]; intros t Hj; [rewrite Nat.add_0_r; reflexivity|].
  replace (t + S j)%nat with (S t + j)%nat by lia. rewrite <- IH by lia.
  change (winat (S t)) with (nextw (winat t)). unfold nextw. destruct (winat_ok t) as [L _].
  destruct (winat t) as [|x l]; [discriminate|]. cbn [tl nth length] in *. rewrite app_nth1 by lia. reflexivity.
Qed.
Lemma sched_wd t : wd (sched t).
Proof. destruct (winat_ok t) as [L F]. rewrite Forall_forall in F. apply F, nth_In. lia. Qed.
Lemma sched_first t : (t < 16)%nat -> sched t = nth t win0 0.
Proof. intros H. symmetry. exact (winat_nth t 0 H). Qed.
Lemma sched_next t : (16 <= t)%nat ->
  sched t = (f_sigma A (ha_s1 A) (sched (t - 2)) + sched (t - 7) + f_sigma A (ha_s0 A) (sched (t - 15)) + sched (t - 16)) mod 2 ^ Z.of_nat (ha_w A).
Proof.
  intros H. set (u := (t - 16)%nat). replace t with (S u + 15)%nat at 1 by lia. rewrite <- winat_nth by lia.
  change (winat (S u)) with (nextw (winat u)). unfold nextw. destruct (winat_ok u) as [L _].
  assert (length (tl (winat u)) = 15%nat) as L' by (destruct (winat u); cbn [length tl] in *; lia).
  rewrite app_nth2 by lia. rewrite L'. cbn [nth Nat.sub]. unfold w16. rewrite !winat_nth by lia.
  replace (u + 14)%nat with (t - 2)%nat by lia. replace (u + 9)%nat with (t - 7)%nat by lia.
  replace (u + 1)%nat with (t - 15)%nat by lia. rewrite Nat.add_0_r. rewrite <- e0, <- e1.
  rewrite (sigma_spec P A Ew Ww _ _ r1 (sched_wd _)), (sigma_spec P A Ew Ww _ _ r0 (sched_wd _)). rewrite !(wadd_spec P A Ww), Ew.
  apply mod4.
Qed.
Lemma rounds_exist ks : forall t s, wd8 s -> exists S : nat -> st8, S O = s /\
  (forall i, (i < length ks)%nat -> S (i + 1)%nat = f_step A (nth i ks 0) (sched (t + i)) (S i)) /\
  to8 (S (length ks)) = sha_rounds P ks (winat t) (to8 s) /\ wd8 (S (length ks)).
Proof.
  induction ks as [|k ks IH]; intros t s H.
  - exists (fun _ => s). split; [reflexivity|]. split; [intros i Hi; cbn in Hi; lia|]. split; [reflexivity|exact H].
  - destruct (mstep_spec k (sched t) s H) as [Q R]. destruct (IH (S t) _ R) as (T & T0 & TS & TE & TW).
    exists (fun i => match i with O => s | S i => T i end). split; [reflexivity|]. split; [|split].
    + intros [|i] Hi; cbn [nth Nat.add].
      * rewrite Nat.add_0_r. exact T0.
      * replace (t + S i)%nat with (S t + i)%nat by lia. cbn [length] in Hi. apply TS. lia.
    + cbn [length]. rewrite rounds_cons. change (nth 0 (winat t) 0) with (sched t). rewrite Q. exact TE.
    + exact TW.
Qed.
End Window.
Lemma skip_skip (l : bytes) : forall x y, skipn x (skipn y l) = skipn (y + x) l.
Proof. induction l as [|a l IH]; intros x [|y]; try reflexivity; [rewrite !skipn_nil; reflexivity|]. apply IH. Qed.
Lemma be_words_length n : forall b, length (be_words P n b) = n.
Proof. induction n as [|n IH]; intros b; cbn [be_words length]; [reflexivity|]. rewrite IH. reflexivity. Qed.
Lemma be_words_nth n : forall b t, (t < n)%nat -> nth t (be_words P n b) 0 = be_val (firstn (sp_bytes P) (skipn (sp_bytes P * t) b)).
Proof.
  induction n as [|n IH]; intros b t Ht; [lia|]. cbn [be_words]. destruct t as [|t].
  - rewrite Nat.mul_0_r. reflexivity.
  - cbn [nth]. rewrite IH by lia. f_equal. f_equal. rewrite skip_skip. f_equal. lia.
Qed.
Lemma be_word_wd b : bytes_ok b -> wd (be_val (firstn (sp_bytes P) b)).
Proof.
  intros H. assert (bytes_ok (firstn (sp_bytes P) b)) as F by (unfold bytes_ok; apply Forall_forall; intros x I; rewrite <- (firstn_skipn (sp_bytes P) b) in H; apply Forall_app in H; destruct H as [H _]; rewrite Forall_forall in H; auto).
  pose proof (be_val_range _ F) as R. unfold ProofHashWords.wd. rewrite Ew.
  assert (256 ^ blen (firstn (sp_bytes P) b) <= 2 ^ Z.of_nat (ha_w A)).
  { change 256 with (2 ^ 8). rewrite <- Z.pow_mul_r by (unfold blen; lia). apply Z.pow_le_mono_r; [lia|].
    destruct HP as (_ & _ & _ & E & _). rewrite E. unfold blen. pose proof (firstn_le_length (sp_bytes P) b). lia. }
  lia.
Qed.
Lemma skipn_ok n (b : bytes) : bytes_ok b -> bytes_ok (skipn n b).
Proof. intros H. rewrite <- (firstn_skipn n b) in H. apply Forall_app in H. apply H. Qed.
Lemma be_words_wd n : forall b, bytes_ok b -> Forall wd (be_words P n b).
Proof.
  induction n as [|n IH]; intros b H; cbn [be_words]; constructor; [apply be_word_wd, H|]. apply IH, skipn_ok, H.
Qed.
Lemma add8_spec s s' : add_words P (to8 s) (to8 s') = to8 (f_add8 A s s').
Proof.
  destruct s as [[[[[[[a b] c] d] e] f] g] h], s' as [[[[[[[a' b'] c'] d'] e'] f'] g'] h'].
  cbn [to8 add_words f_add8]. rewrite !(wadd_spec P A Ww). unfold f_add. rewrite Ew. reflexivity.
Qed.
Lemma add8_wd s s' : wd8 (f_add8 A s s').
Proof.
  unfold wd8. rewrite <- add8_spec. destruct s as [[[[[[[a b] c] d] e] f] g] h], s' as [[[[[[[a' b'] c'] d'] e'] f'] g'] h'].
  cbn [to8 add_words]. repeat (constructor; [exact (wadd_wd P A Ww _ _)|]). constructor.
Qed.
Lemma block_spec b s : bytes_ok b -> wd8 s -> exists s', sha_block P b (to8 s) = to8 s' /\ wd8 s' /\
  compress_is A (fun t => be_val (firstn (f_bytes A) (skipn (f_bytes A * t) b))) s s'.
Proof.
  intros Hb Hs. pose proof (be_words_length 16 b) as L. pose proof (be_words_wd 16 b Hb) as F.
  destruct (rounds_exist _ L (sp_k P) 0 s Hs) as (S & S0 & SS & SE & _).
  assert (EK : length (sp_k P) = ha_rounds A) by apply HP. rewrite EK in *.
  exists (f_add8 A s (S (ha_rounds A))). split; [|split].
  - unfold sha_block. rewrite <- add8_spec, SE. reflexivity.
  - apply add8_wd.
  - exists (sched (be_words P 16 b)), (fun t => nth t (sp_k P) 0), S. repeat split.
    + intros t Ht. rewrite sched_first by assumption. rewrite be_words_nth by exact Ht. rewrite Eb. reflexivity.
    + intros t Ht. apply sched_next; assumption.
    + intros t Ht. rewrite <- Ew. refine (proj1 (rootsb_sound 3 (sp_w P) (sp_k P) _ _ _ t _)); try apply HP; try lia. rewrite EK. apply HP.
    + exact S0.
    + intros t Ht. apply SS. exact Ht.
Qed.
Lemma chain_spec n : forall b s, bytes_ok b -> wd8 s -> length b = (n * (16 * f_bytes A))%nat ->
  exists s', sha_blocks P n b (to8 s) = to8 s' /\ chain A s b s'.
Proof.
  induction n as [|n IH]; intros b s Hb Hs L.
  - destruct b; [|discriminate]. exists s. split; [reflexivity|constructor].
  - set (B := (16 * f_bytes A)%nat) in *.
    assert (Hf : bytes_ok (firstn B b)) by (rewrite <- (firstn_skipn B b) in Hb; apply Forall_app in Hb; apply Hb).
    destruct (block_spec (firstn B b) s Hf Hs) as (s1 & E1' & W1 & C1).
    destruct (IH (skipn B b) s1) as (s2 & E2 & C2); [apply skipn_ok, Hb|exact W1|rewrite skipn_length; lia|].
    exists s2. split.
    + cbn [sha_blocks]. rewrite Eb. fold B. rewrite E1'. exact E2.
    + rewrite <- (firstn_skipn B b). econstructor; [rewrite firstn_length; fold B; lia|exact C1|exact C2].
Qed.
Lemma fb_pos : (0 < f_bytes A)%nat.
Proof. destruct HP as (Q & Q1 & Q2 & Q3 & _). rewrite <- Q2. lia. Qed.
Lemma pad_spec m : 8 * blen m < 2 ^ (2 * Z.of_nat (ha_w A)) -> padded A m (sha_pad P m).
Proof.
  intros H. unfold sha_pad, padded. cbv zeta. rewrite Eb. pose proof fb_pos as Q. set (n := f_bytes A) in *.
  set (z := (- (blen m + 1 + Z.of_nat (2 * n))) mod Z.of_nat (16 * n)).
  assert (Z0 : 0 <= z < Z.of_nat (16 * n)) by (apply Z.mod_pos_bound; lia).
  exists (Z.to_nat z), (be_bytes (2 * n) (8 * blen m)). cbn [app]. split; [reflexivity|]. split; [apply be_bytes_length|].
  split; [apply be_bytes_ok|]. split; [|split].
  - rewrite be_val_be_bytes. apply Z.mod_small. split; [unfold blen; lia|].
    change 256 with (2 ^ 8). rewrite <- Z.pow_mul_r by lia.
    replace (8 * Z.of_nat (2 * n)) with (2 * Z.of_nat (ha_w A)); [exact H|]. destruct HP as (_ & _ & E2 & E3 & _). unfold n. rewrite E3, E2. lia.
  - rewrite app_length. cbn [length]. rewrite app_length, repeat_length, be_bytes_length. apply Nat2Z.inj. rewrite Nat2Z.inj_mod.
    replace (Z.of_nat (length m + S (Z.to_nat z + 2 * n))) with (blen m + 1 + Z.of_nat (2 * n) + z) by (unfold blen; lia).
    unfold z. rewrite Zplus_mod_idemp_r. rewrite Z.add_opp_diag_r. apply Z.mod_0_l. lia.
  - lia.
Qed.
Lemma pad_bytes m : bytes_ok m -> bytes_ok (sha_pad P m).
Proof.
  intros H. unfold sha_pad. cbv zeta. apply Forall_app. split; [exact H|]. constructor; [unfold byte_ok; lia|]. cbn [app].
  apply Forall_app. split; [apply Forall_forall; intros x I; apply repeat_spec in I; subst; unfold byte_ok; lia|apply be_bytes_ok].
Qed.
Lemma initial_spec : exists s, to8 s = sp_h P /\ wd8 s /\ initial A s.
Proof.
  assert (L : length (sp_h P) = 8%nat) by apply HP.
  assert (R : forall t, (t < 8)%nat -> (exists p, nth_prime t p /\ frac_root 2 (sp_w P) p (nth t (sp_h P) 0)) /\ 0 <= nth t (sp_h P) 0 < 2 ^ sp_w P).
  { intros t Ht. apply rootsb_sound; try apply HP; lia. }
  destruct (sp_h P) as [|a [|b [|c [|d [|e [|f [|g [|h [|]]]]]]]]]; try discriminate L.
  exists (a, b, c, d, e, f, g, h). split; [reflexivity|]. split.
  - unfold wd8. cbn [to8]. apply Forall_forall. intros x I. destruct (In_nth _ _ 0 I) as (t & Ht & <-). apply R. exact Ht.
  - unfold initial. rewrite <- Ew. intros i Hi. apply R, Hi.
Qed.
Lemma sha_exists m : bytes_ok m -> 8 * blen m < 2 ^ (2 * Z.of_nat (ha_w A)) -> sha_is A m (sha_digest P m).
Proof.
  intros Hb Hl. destruct initial_spec as (s & Es & Ws & Is). pose proof (pad_spec m Hl) as Pm.
  pose proof fb_pos as Q. assert (Lp : (length (sha_pad P m) mod (16 * f_bytes A) = 0)%nat) by (destruct Pm as (k & l & _ & _ & _ & _ & X & _); exact X).
  apply Nat.mod_divides in Lp; [|lia]. destruct Lp as [n Ln].
  destruct (chain_spec n (sha_pad P m) s (pad_bytes m Hb) Ws) as (s' & E & C); [lia|].
  exists (sha_pad P m), s, s'. split; [exact Pm|]. split; [exact Is|]. split; [exact C|].
  unfold sha_digest. cbv zeta. rewrite Eb, Ln. rewrite Nat.mul_comm, Nat.div_mul by lia. rewrite <- Es, E.
  destruct s' as [[[[[[[a b] c] d] e] f] g] h]. reflexivity.
Qed.
End Sha.

(** ** the specification determines the result *)
Section Unique.
Context (A : hash_alg) (Q : (0 < f_bytes A)%nat).
Lemma compress_unique M s s1 s2 : compress_is A M s s1 -> compress_is A M s s2 -> s1 = s2.
Proof.
  intros (W & K & S & WM & WN & KK & S0 & SS & ->) (W' & K' & S' & WM' & WN' & KK' & S0' & SS' & ->).
  assert (EW : forall n t, (t < n)%nat -> W t = W' t).
  { induction n as [|n IH]; intros t Ht; [lia|]. destruct (Nat.lt_ge_cases t 16) as [L|L]; [rewrite WM, WM' by exact L; reflexivity|].
    rewrite WN, WN' by exact L. rewrite (IH (t - 2)%nat), (IH (t - 7)%nat), (IH (t - 15)%nat), (IH (t - 16)%nat) by lia. reflexivity. }
  assert (EK : forall t, (t < ha_rounds A)%nat -> K t = K' t).
  { intros t Ht. destruct (KK t Ht) as (p & P1 & R1). destruct (KK' t Ht) as (p' & P2 & R2).
    rewrite (nth_prime_unique _ _ _ P1 P2) in R1. eapply (frac_root_unique 3); [lia|exact R1|exact R2]. }
  assert (ES : forall t, (t <= ha_rounds A)%nat -> S t = S' t).
  { induction t as [|t IH]; intros Ht; [congruence|]. replace (Datatypes.S t) with (t + 1)%nat by lia.
    rewrite SS, SS' by lia. rewrite IH, EK, (EW (Datatypes.S t) t) by lia. reflexivity. }
  rewrite ES by lia. reflexivity.
Qed.
Lemma app_same_length (a b r r' : bytes) : length a = length b -> a ++ r = b ++ r' -> a = b /\ r = r'.
Proof.
  revert b. induction a as [|x a IH]; intros [|y b] L E; try discriminate L; [split; [reflexivity|exact E]|].
  cbn [app length] in *. injection E as -> E. destruct (IH b ltac:(lia) E) as [-> ->]. split; reflexivity.
Qed.
Lemma chain_inv s b s2 : chain A s b s2 -> (b = [] /\ s2 = s) \/
  exists b1 r s1, b = b1 ++ r /\ length b1 = (16 * f_bytes A)%nat /\
    compress_is A (fun t => be_val (firstn (f_bytes A) (skipn (f_bytes A * t) b1))) s s1 /\ chain A s1 r s2.
Proof. intros [s'|s' b1 r s1 s2' L C H]; [left; split; reflexivity|]. right. exists b1, r, s1. repeat split; assumption. Qed.
Lemma chain_unique s b s1 : chain A s b s1 -> forall s2, chain A s b s2 -> s1 = s2.
Proof.
  induction 1 as [s|s b r s1 s2 L C H IH]; intros s' H'; apply chain_inv in H'; destruct H' as [[E ->]|(b1 & r1 & t1 & E & L1 & C1 & H1)].
  - reflexivity.
  - symmetry in E. apply app_eq_nil in E. destruct E as [-> _]. cbn [length] in L1. lia.
  - apply app_eq_nil in E. destruct E as [-> _]. cbn [length] in L. lia.
  - apply app_same_length in E; [|congruence]. destruct E as [-> ->]. rewrite (compress_unique _ _ _ _ C C1) in *. apply IH. exact H1.
Qed.
Lemma padded_unique m p p' : padded A m p -> padded A m p' -> p = p'.
Proof.
  intros (k & l & -> & L & B & V & M & K) (k' & l' & -> & L' & B' & V' & M' & K').
  assert (l = l') as -> by (apply be_val_inj; [exact B|exact B'|congruence|congruence]).
  assert (k = k') as ->; [|reflexivity].
  rewrite !app_length in M, M'. cbn [length] in M, M'. rewrite !app_length, !repeat_length in M, M'.
  apply Nat.mod_divides in M; [|lia]. apply Nat.mod_divides in M'; [|lia]. destruct M as [x X], M' as [y Y].
  set (n := (16 * f_bytes A)%nat) in *. assert (x = y) as E by nia. subst y. lia.
Qed.
Lemma initial_unique s s' : initial A s -> initial A s' -> s = s'.
Proof.
  destruct s as [[[[[[[a b] c] d] e] f] g] h], s' as [[[[[[[a' b'] c'] d'] e'] f'] g'] h']. cbn [initial]. intros I J.
  assert (G : forall i, (i < 8)%nat -> nth i [a; b; c; d; e; f; g; h] 0 = nth i [a'; b'; c'; d'; e'; f'; g'; h'] 0).
  { intros i Hi. destruct (I i Hi) as (p & P1 & R1). destruct (J i Hi) as (p' & P2 & R2).
    rewrite (nth_prime_unique _ _ _ P1 P2) in R1. eapply (frac_root_unique 2); [lia|exact R1|exact R2]. }
  pose proof (G 0%nat ltac:(lia)). pose proof (G 1%nat ltac:(lia)). pose proof (G 2%nat ltac:(lia)). pose proof (G 3%nat ltac:(lia)).
  pose proof (G 4%nat ltac:(lia)). pose proof (G 5%nat ltac:(lia)). pose proof (G 6%nat ltac:(lia)). pose proof (G 7%nat ltac:(lia)).
  cbn [nth] in *. congruence.
Qed.
Lemma sha_unique m d d' : sha_is A m d -> sha_is A m d' -> d = d'.
Proof.
  intros (p & s & t & Pp & I & C & D) (p' & s' & t' & Pp' & I' & C' & D').
  rewrite (padded_unique _ _ _ Pp Pp') in C. rewrite (initial_unique _ _ I I') in C. rewrite (chain_unique _ _ _ C _ C') in D.
  destruct t' as [[[[[[[a b] c] e] f] g] h] i]. congruence.
Qed.
End Unique.

Lemma agree256 : params_agree par256 fips256.
Proof.
  unfold params_agree. repeat split; try reflexivity; try (cbn; lia); vm_compute; reflexivity.
Qed.
Lemma agree512 : params_agree par512 fips512.
Proof.
  unfold params_agree. repeat split; try reflexivity; try (cbn; lia); vm_compute; reflexivity.
Qed.
