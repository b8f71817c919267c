(** C112: random polynomials. *)
From Coq Require Import ZArith Lia Bool List.
From Verif Require Import Base BaseFacts Zmod Fields ModelScalar ProofScalar ModelXmd ModelRo ProofRand ProofTranscript ModelPoly PropRand.
From Verif Require Import ToyShort.
Import ListNotations.
Open Scope Z_scope.

(** [drawn_to key pos l pos']: the scalars of [l] come one after the other from
    the key stream between [pos] and [pos']; each is the first exclusive or of
    its blocks of 32 bytes that is below the group order *)
Fixpoint drawn_to {X : Oracles} (key : bytes) (pos : nat) (l : list Fq) (pos' : nat) : Prop :=
  match l with
  | [] => pos' = pos
  | s :: l => exists n, (1 <= n <= rand_fuel)%nat /\ fv s = be_val (blocks_xor (mkrng key pos) n) /\
      (forall j, (1 <= j < n)%nat -> q <= be_val (blocks_xor (mkrng key pos) j)) /\ drawn_to key (pos + 32 * n) l pos'
  end.

Section Facts.
Context {X : Oracles} (HX : oracles_ok X).
Lemma ser_val s b : scalar_serialize s = b -> fv s = be_val b.
Proof. intros <-. symmetry. apply scalar_serialize_val. Qed.
Lemma random_iff key pos s r' : random_scalar (mkrng key pos) = Ok (s, r') <->
  exists n, (1 <= n <= rand_fuel)%nat /\ fv s = be_val (blocks_xor (mkrng key pos) n) /\
    (forall j, (1 <= j < n)%nat -> q <= be_val (blocks_xor (mkrng key pos) j)) /\ r' = mkrng key (pos + 32 * n).
Proof.
  destruct (C58_random_scalar X HX (mkrng key pos)) as [(n & t & Hn & E & Es & Hq & Hm)|[E Hm]]; rewrite E; cbn [rng_key rng_pos].
  - apply ser_val in Es. split.
    + intros H. injection H as <- <-. exists n. auto.
    + intros (m & Hm1 & Ev & Hm2 & ->).
      assert (m = n) as ->.
      { destruct (Nat.lt_trichotomy m n) as [L|[L|L]]; [|exact L|].
        - pose proof (Hm m ltac:(lia)) as B. rewrite <- Ev in B. pose proof (fv_range q s eq_refl). lia.
        - pose proof (Hm2 n ltac:(lia)). lia. }
      do 2 f_equal. apply fe_eq. congruence.
  - split; [discriminate|]. intros (m & Hm1 & Ev & _). pose proof (Hm m Hm1) as B. rewrite <- Ev in B. pose proof (fv_range q s eq_refl). lia.
Qed.
Lemma scalars_iff key l r' : forall n pos, random_scalars n (mkrng key pos) = Ok (l, r') <-> length l = n /\ rng_key r' = key /\ drawn_to key pos l (rng_pos r').
Proof.
  induction l as [|s l IH]; intros [|n] pos; cbn [random_scalars drawn_to length].
  - split; [intros H; injection H as <-; auto|]. intros (_ & K & P). destruct r'. cbn in *. subst. reflexivity.
  - split; [|intros [H _]; discriminate]. destruct (random_scalar _) as [[x r]| | |]; cbn [bind]; try discriminate.
    destruct (random_scalars n r) as [[l r2]| | |]; cbn [bind]; discriminate.
  - split; [discriminate|intros [H _]; discriminate].
  - split.
    + destruct (random_scalar (mkrng key pos)) as [[x r]| | |] eqn:E; cbn [bind]; try discriminate.
      apply random_iff in E. destruct E as (k & Hk & Ev & Hm & ->).
      destruct (random_scalars n (mkrng key (pos + 32 * k))) as [[l2 r2]| | |] eqn:E2; cbn [bind]; try discriminate.
      intros H. injection H as -> -> ->. apply IH in E2. destruct E2 as (L & K & D). split; [congruence|]. split; [exact K|]. exists k. auto.
    + intros (L & K & k & Hk & Ev & Hm & D).
      rewrite (proj2 (random_iff key pos s (mkrng key (pos + 32 * k)))) by (exists k; auto). cbn [bind].
      rewrite (proj2 (IH n (pos + 32 * k)%nat)) by (split; [congruence|auto]). reflexivity.
Qed.
Lemma scalars_fine n : forall r, random_scalars n r <> Err /\ random_scalars n r <> Panic.
Proof.
  induction n as [|n IH]; intros r; cbn [random_scalars]; [split; discriminate|].
  destruct (C58_random_scalar X HX r) as [(m & t & _ & E & _)|[E _]]; rewrite E; cbn [bind]; [|split; discriminate].
  destruct (IH (mkrng (rng_key r) (rng_pos r + 32 * m))) as [H1 H2]. destruct (random_scalars n _) as [[l r2]| | |]; cbn [bind]; split; congruence.
Qed.
End Facts.

(** C112: Random returns exactly the wanted number of scalars drawn one after
    the other, RandomWithConstant the constant followed by one draw fewer; the
    generator is left where the last draw ended *)
Theorem C112_random_polynomials : forall (X : Oracles) (HX : oracles_ok X) num key pos,
  (forall po r', poly_random num (mkrng key pos) = Ok (po, r') <->
     Z.of_nat (length po) = num /\ rng_key r' = key /\ drawn_to key pos po (rng_pos r')) /\
  (forall c po r', poly_random_with_constant c num (mkrng key pos) = Ok (po, r') <->
     exists l, po = c :: l /\ Z.of_nat (length po) = num /\ rng_key r' = key /\ drawn_to key pos l (rng_pos r')).
Proof.
  intros X HX num key pos. split.
  - intros po r'. unfold poly_random. destruct (Z.ltb_spec num 0); [split; [discriminate|lia]|].
    rewrite (scalars_iff HX). split; intros (L & R); (split; [lia|exact R]).
  - intros c po r'. unfold poly_random_with_constant. destruct (Z.eqb_spec num 0) as [->|].
    { split; [discriminate|]. intros (l & -> & L & _). cbn [length] in L. lia. }
    destruct (Z.ltb_spec num 0); [split; [discriminate|intros (l & -> & L & _); cbn [length] in L; lia]|]. split.
    + destruct (random_scalars (Z.to_nat num - 1) (mkrng key pos)) as [[l r2]| | |] eqn:E; cbn [bind]; try discriminate.
      intros H'. injection H' as <- <-. apply (scalars_iff HX) in E. destruct E as (L & R). exists l. split; [reflexivity|]. cbn [length]. split; [lia|exact R].
    + intros (l & -> & L & R). cbn [length] in L. rewrite (proj2 (scalars_iff HX key l r' (Z.to_nat num - 1) pos)) by (split; [lia|exact R]). reflexivity.
Qed.
Print Assumptions C112_random_polynomials.

(** C112: when they fail: a negative number of coefficients panics in both, a
    constant without coefficients is an error, and nothing else is *)
Theorem C112_failures : forall (X : Oracles) (HX : oracles_ok X) num c r,
  (poly_random num r = Panic <-> num < 0) /\ poly_random num r <> Err /\
  (poly_random_with_constant c num r = Panic <-> num < 0) /\ (poly_random_with_constant c num r = Err <-> num = 0).
Proof.
  intros X HX num c r. unfold poly_random, poly_random_with_constant.
  destruct (scalars_fine HX (Z.to_nat num) r) as [A B]. destruct (scalars_fine HX (Z.to_nat num - 1) r) as [A' B'].
  split; [|split; [|split]].
  - destruct (Z.ltb_spec num 0); split; intros H'; try lia; try reflexivity; contradiction.
  - destruct (Z.ltb_spec num 0); [discriminate|exact A].
  - destruct (Z.eqb_spec num 0), (Z.ltb_spec num 0); try lia; try (split; [discriminate|lia]); try (split; [lia|reflexivity]).
    split; [|lia]. destruct (random_scalars (Z.to_nat num - 1) r) as [[l r2]| | |]; cbn [bind]; intros; congruence.
  - destruct (Z.eqb_spec num 0); [split; auto|]. split; [|lia]. destruct (Z.ltb_spec num 0); [discriminate|].
    destruct (random_scalars (Z.to_nat num - 1) r) as [[l r2]| | |]; cbn [bind]; intros; congruence.
Qed.
Print Assumptions C112_failures.

(** C112: the number of coefficients does not change those drawn first, and two
    polynomials drawn one after the other never use the same key stream bytes *)
Theorem C112_consecutive : forall (X : Oracles) (HX : oracles_ok X) n m key pos a ra b rb,
  poly_random n (mkrng key pos) = Ok (a, ra) -> poly_random m ra = Ok (b, rb) -> poly_random (n + m) (mkrng key pos) = Ok (a ++ b, rb) /\
  (pos + 32 * length a <= rng_pos ra)%nat /\ (rng_pos ra + 32 * length b <= rng_pos rb)%nat.
Proof.
  intros X HX n m key pos a ra b rb Ha Hb. destruct ra as [ka pa].
  apply (proj1 (C112_random_polynomials X HX n key pos)) in Ha. destruct Ha as (La & Ka & Da). cbn [rng_key rng_pos] in *. subst ka.
  apply (proj1 (C112_random_polynomials X HX m key pa)) in Hb. destruct Hb as (Lb & Kb & Db).
  assert (G : forall l p p', drawn_to key p l p' -> (p + 32 * length l <= p')%nat).
  { induction l as [|s l IH]; intros p p'; cbn [drawn_to length]; [lia|]. intros (k & Hk & _ & _ & D). apply IH in D. lia. }
  split; [|split; apply G; assumption].
  apply (proj1 (C112_random_polynomials X HX (n + m) key pos)). rewrite app_length. split; [lia|]. split; [exact Kb|].
  clear La Lb. revert pos Da. induction a as [|s a IH]; intros pos; cbn [drawn_to app]; [intros ->; exact Db|].
  intros (k & Hk & Ev & Hm & D). exists k. auto.
Qed.
Print Assumptions C112_consecutive.

(** test values *)
Section Ex.
Existing Instance ToyShort.shortX.
Example C112_ex : match poly_random 2 (mkrng (repeat 5 32) 3) with Ok (a, ra) => match poly_random 1 ra with Ok (b, rb) => (length (a ++ b), rng_pos rb) | _ => (0, 0)%nat end | _ => (0, 0)%nat end = (3, 99)%nat.
Proof. vm_compute. reflexivity. Qed.
Example C112_ex_constant : match poly_random_with_constant fone 3 (mkrng (repeat 5 32) 3) with Ok (c :: l, r) => (feqb c fone, length l, rng_pos r) | _ => (false, 0, 0)%nat end = (true, 2, 67)%nat.
Proof. vm_compute. reflexivity. Qed.
End Ex.
