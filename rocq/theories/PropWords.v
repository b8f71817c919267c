(** C115: rotations, constants and padding of the hash functions and the cipher. *)
From Coq Require Import ZArith Znumtheory Lia Bool List Sorted.
From Verif Require Import Base BaseFacts ModelHashes ProofHashes.
Import ListNotations.
Open Scope Z_scope.

(** Spec: [y] is the word [x] of [w] bits turned by [n] places to the left *)
Definition turned_left (w n x y : Z) : Prop :=
  0 <= y < 2^w /\ forall i, 0 <= i < w -> Z.testbit y i = Z.testbit x ((i - n) mod w).
(** [c] are the first [w] bits of the fractional part of the [e]-th root of [a] *)
Definition root_bits (e w a c : Z) : Prop :=
  0 <= c < 2^w /\ exists n, 0 <= n /\ (n * 2^w + c)^e <= a * 2^(e * w) < (n * 2^w + c + 1)^e.

Lemma word_bits w y : 0 <= w -> (forall i, w <= i -> Z.testbit y i = false) -> 0 <= y < 2^w.
Proof.
  intros W H. assert (E : y = y mod 2^w).
  { apply Z.bits_inj'. intros i Hi. destruct (Z.lt_ge_cases i w) as [L|L]; [now rewrite Z.mod_pow2_bits_low|]. now rewrite Z.mod_pow2_bits_high, H by lia. }
  rewrite E. apply Z.mod_pos_bound. apply Z.pow_pos_nonneg; lia.
Qed.
Lemma bits_word w x i : 0 <= x < 2^w -> w <= i -> Z.testbit x i = false.
Proof.
  intros H L. destruct (Z.lt_ge_cases w 0) as [N|N]; [rewrite Z.pow_neg_r in H by lia; lia|].
  rewrite <- (Z.mod_small x (2^w)) by exact H. apply Z.mod_pow2_bits_high. lia.
Qed.
Lemma turn w x n : 0 < w -> 0 <= x < 2^w -> 0 <= n <= w -> turned_left w n x (Z.lor (Z.land (Z.shiftl x n) (Z.ones w)) (Z.shiftr x (w - n))).
Proof.
  intros W H N.
  assert (T : forall i, 0 <= i -> Z.testbit (Z.lor (Z.land (Z.shiftl x n) (Z.ones w)) (Z.shiftr x (w - n))) i =
     if i <? w then Z.testbit x ((i - n) mod w) else false).
  { intros i Hi. rewrite Z.lor_spec, Z.land_spec, Z.shiftl_spec, Z.shiftr_spec by lia. destruct (Z.ltb_spec i w) as [L|L].
    - rewrite Z.ones_spec_low, andb_true_r by lia. destruct (Z.lt_ge_cases i n) as [L'|L'].
      + rewrite (Z.testbit_neg_r x (i - n)) by lia. cbn [orb]. f_equal. apply Z.mod_unique with (-1); lia.
      + rewrite (bits_word w x (i + (w - n))), orb_false_r by lia. f_equal. symmetry. apply Z.mod_small. lia.
    - rewrite Z.ones_spec_high, andb_false_r by lia. apply (bits_word w); lia. }
  split.
  - apply word_bits; [lia|]. intros i Hi. rewrite T by lia. destruct (Z.ltb_spec i w); [lia|reflexivity].
  - intros i Hi. rewrite T by lia. destruct (Z.ltb_spec i w); [reflexivity|lia].
Qed.

(** The rotations of the cipher and of both hash functions turn words. *)
Theorem C115_rotations : forall x n,
  (0 <= x < 2^32 -> 0 <= n <= 32 -> turned_left 32 n x (rotl32 x n)) /\
  (forall w, 0 < w -> 0 <= x < 2^w -> 0 <= n <= w -> turned_left w (w - n) x (rotr w (Z.ones w) x n)).
Proof.
  intros x n. split.
  - intros H N. apply (turn 32); lia.
  - intros w W H N. unfold rotr. rewrite Z.lor_comm. replace n with (w - (w - n)) at 3 by lia. apply turn; lia.
Qed.
Print Assumptions C115_rotations.

(** the primes below 410: no divisor from 2 to 20 besides themselves *)
Definition upto (n : nat) : list Z := map (fun i => Z.of_nat i + 2) (seq 0 n).
Definition no_divisor (p : Z) : bool := forallb (fun d => (p <=? d) || negb (p mod d =? 0)) (upto 19).
Lemma upto_in n p : In p (upto n) <-> 2 <= p < Z.of_nat n + 2.
Proof.
  unfold upto. rewrite in_map_iff. split.
  - intros (i & <- & H). apply in_seq in H. lia.
  - intros H. exists (Z.to_nat (p - 2)). split; [lia|]. apply in_seq. lia.
Qed.
Lemma filter_primes p : In p (filter no_divisor (upto 408)) <-> prime p /\ p < 410.
Proof.
  unfold no_divisor. rewrite filter_In, upto_in, forallb_forall. split.
  - intros [B H]. split; [|lia]. apply prime_alt. split; [lia|].
    assert (S : forall d, 1 < d < p -> d <= 20 -> ~ (d | p)).
    { intros d Hd Hl V. specialize (H d). rewrite upto_in in H. apply Zdivide_mod in V. rewrite V in H. destruct (Z.leb_spec p d); [lia|]. cbn in H. specialize (H ltac:(lia)). discriminate. }
    intros d Hd [k V]. destruct (Z.le_gt_cases d 20) as [L|L]; [apply (S d); [lia|lia|now exists k]|].
    apply (S k); [nia|nia|exists d; lia].
  - intros [P B]. apply prime_alt in P. destruct P as [P N]. split; [lia|]. intros d Hd. apply upto_in in Hd.
    destruct (Z.leb_spec p d); [reflexivity|]. cbn [orb]. destruct (Z.eqb_spec (p mod d) 0) as [E|_]; [|reflexivity].
    exfalso. apply (N d); [lia|]. apply Zmod_divide; [lia|exact E].
Qed.
Definition some_primes : list Z :=
  [2; 3; 5; 7; 11; 13; 17; 19; 23; 29; 31; 37; 41; 43; 47; 53; 59; 61; 67; 71; 73; 79; 83; 89; 97; 101; 103; 107; 109; 113; 127; 131; 137; 139; 149; 151; 157; 163; 167; 173;
   179; 181; 191; 193; 197; 199; 211; 223; 227; 229; 233; 239; 241; 251; 257; 263; 269; 271; 277; 281; 283; 293; 307; 311; 313; 317; 331; 337; 347; 349; 353; 359; 367; 373; 379; 383; 389; 397; 401; 409].
Lemma some_primes_eq : filter no_divisor (upto 408) = some_primes.
Proof. vm_compute. reflexivity. Qed.
(** deciding [root_bits], given the integer part *)
Definition root_check (e w a c : Z) (n : Z) : bool :=
  (0 <=? c) && (c <? 2^w) && (0 <=? n) && ((n * 2^w + c)^e <=? a * 2^(e * w)) && (a * 2^(e * w) <? (n * 2^w + c + 1)^e).
Fixpoint root_checks (e w : Z) (l cs : list Z) : bool :=
  match l, cs with
  | [], [] => true
  | a :: l, c :: cs => existsb (root_check e w a c) ([0; 1] ++ upto 20) && root_checks e w l cs
  | _, _ => false
  end.
Lemma root_checks_ok e w : forall l cs, root_checks e w l cs = true -> Forall2 (root_bits e w) l cs.
Proof.
  induction l as [|a l IH]; intros [|c cs] H; cbn [root_checks] in H; try discriminate; constructor.
  - apply andb_true_iff in H. destruct H as [H _]. apply existsb_exists in H. destruct H as (n & _ & H). unfold root_check in H.
    rewrite !andb_true_iff, !Z.leb_le, !Z.ltb_lt in H. destruct H as ((((H1 & H2) & H3) & H4) & H5). split; [lia|]. exists n. auto.
  - apply andb_true_iff in H. apply IH. apply H.
Qed.
Fixpoint ascends (l : list Z) : bool := match l with x :: t => match t with y :: _ => (x <? y) && ascends t | [] => true end | [] => true end.
Lemma sorted_check : forall l, ascends l = true -> Sorted Z.lt l.
Proof.
  induction l as [|x [|y l] IH]; intros H; [constructor|constructor; constructor|].
  change ((x <? y) && ascends (y :: l) = true) in H. apply andb_true_iff in H. destruct H as [H1 H2]. constructor; [apply IH, H2|]. constructor. apply Z.ltb_lt, H1.
Qed.

(** The constants of SHA-256 and SHA-512: cube roots of the first 64 and 80 primes
    for the rounds, square roots of the first eight for the initial values. *)
Theorem C115_constants : exists ps, Sorted Z.lt ps /\ (forall p, In p ps <-> prime p /\ p < 410) /\ length ps = 80%nat /\
  Forall2 (root_bits 3 32) (firstn 64 ps) (sp_k par256) /\ Forall2 (root_bits 2 32) (firstn 8 ps) (sp_h par256) /\
  Forall2 (root_bits 3 64) ps (sp_k par512) /\ Forall2 (root_bits 2 64) (firstn 8 ps) (sp_h par512).
Proof.
  exists some_primes. split; [apply sorted_check; vm_compute; reflexivity|]. split; [intros p; rewrite <- some_primes_eq; apply filter_primes|].
  split; [vm_compute; reflexivity|]. repeat split; apply root_checks_ok; vm_compute; reflexivity.
Qed.
Print Assumptions C115_constants.

Lemma app_split {A} : forall (a c b d : list A), length a = length c -> a ++ b = c ++ d -> a = c /\ b = d.
Proof.
  induction a as [|x a IH]; intros [|y c] b d L E; cbn in L, E; try discriminate; [auto|].
  injection E as -> E. injection L as L. destruct (IH _ _ _ L E) as [-> ->]. auto.
Qed.
(** Padding fills whole blocks, keeps the message in front, and no padded
    message is the tail of another one; in particular different messages stay different. *)
Theorem C115_padding : forall P, (0 < sp_bytes P)%nat -> forall m,
  (exists n, length (sha_pad P m) = (n * (16 * sp_bytes P))%nat) /\ firstn (length m) (sha_pad P m) = m /\
  (length (sha_pad P m) <= length m + 1 + 2 * sp_bytes P + (16 * sp_bytes P - 1))%nat /\
  forall m', 8 * blen m < 256^Z.of_nat (2 * sp_bytes P) -> 8 * blen m' < 256^Z.of_nat (2 * sp_bytes P) ->
    forall pre, sha_pad P m' = pre ++ sha_pad P m -> m' = m.
Proof.
  intros P B m.
  assert (BL : 0 < Z.of_nat (16 * sp_bytes P)) by lia.
  assert (L : forall m, Z.of_nat (length (sha_pad P m)) = blen m + 1 + Z.of_nat (2 * sp_bytes P) + (- (blen m + 1 + Z.of_nat (2 * sp_bytes P))) mod Z.of_nat (16 * sp_bytes P)).
  { clear m. intros m. unfold sha_pad. rewrite !app_length, repeat_length, be_bytes_length. cbn [length].
    pose proof (Z.mod_pos_bound (- (blen m + 1 + Z.of_nat (2 * sp_bytes P))) _ BL). unfold blen in *. lia. }
  split; [|split; [|split]].
  - set (x := blen m + 1 + Z.of_nat (2 * sp_bytes P)) in *. exists (Z.to_nat (- ((- x) / Z.of_nat (16 * sp_bytes P)))).
    specialize (L m). fold x in L. rewrite (Z.mod_eq (- x)) in L by lia.
    assert (0 <= - ((- x) / Z.of_nat (16 * sp_bytes P))). { enough ((- x) / Z.of_nat (16 * sp_bytes P) <= 0) by lia. apply Z.div_le_upper_bound; [lia|]. unfold x, blen. lia. }
    apply Nat2Z.inj. rewrite L, (Nat2Z.inj_mul _ (16 * sp_bytes P)), Z2Nat.id by assumption. lia.
  - unfold sha_pad. rewrite firstn_app, Nat.sub_diag, firstn_all. cbn [firstn]. apply app_nil_r.
  - specialize (L m). pose proof (Z.mod_pos_bound (- (blen m + 1 + Z.of_nat (2 * sp_bytes P))) _ BL). unfold blen in *. lia.
  - intros m' H H' pre E.
    assert (Len : length m = length m').
    { unfold sha_pad in E.
      assert (T : forall a b c d e f : bytes, length d = length f -> a ++ b ++ c ++ d = e ++ f -> d = f).
      { intros a b c d e f Ld Q. replace (a ++ b ++ c ++ d) with ((a ++ b ++ c) ++ d) in Q by (rewrite <- !app_assoc; reflexivity).
        apply (fun X => proj2 (app_split _ _ _ _ X Q)). apply (f_equal (@length Z)) in Q. rewrite (app_length (a ++ b ++ c)), (app_length e) in Q. lia. }
      assert (Q := T m' [128] _ (be_bytes (2 * sp_bytes P) (8 * blen m')) (pre ++ m ++ [128] ++ repeat 0 (Z.to_nat ((- (blen m + 1 + Z.of_nat (2 * sp_bytes P))) mod Z.of_nat (16 * sp_bytes P)))) (be_bytes (2 * sp_bytes P) (8 * blen m))
        ltac:(rewrite !be_bytes_length; reflexivity) ltac:(rewrite <- !app_assoc; exact E)).
      apply be_bytes_inj in Q; unfold blen in *; lia. }
    assert (Lp : length pre = 0%nat).
    { pose proof (f_equal (@length Z) E) as Q. rewrite app_length in Q. pose proof (L m) as L1. pose proof (L m') as L2. unfold blen in *. rewrite Len in L1. lia. }
    destruct pre; [|discriminate]. cbn [app] in E. unfold sha_pad in E. apply app_split in E; [|congruence]. apply E.
Qed.
Print Assumptions C115_padding.

(** test values: a turned word, and messages of both hash functions *)
Example C115_ex : turned_left 8 3 0x91 0x8c /\ (0 < sp_bytes par256)%nat /\ (0 < sp_bytes par512)%nat /\ 8 * blen [1; 2; 3] < 256^Z.of_nat (2 * sp_bytes par256).
Proof.
  split; [|split; [cbn; lia|split; [cbn; lia|reflexivity]]]. split; [lia|]. intros i H. assert (D : i = 0 \/ i = 1 \/ i = 2 \/ i = 3 \/ i = 4 \/ i = 5 \/ i = 6 \/ i = 7) by lia.
  repeat (destruct D as [->|D]; [reflexivity|]). subst i. reflexivity.
Qed.
