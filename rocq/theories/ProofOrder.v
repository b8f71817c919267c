(** Every point of secp256k1 is annihilated by q. *)
From Coq Require Import ZArith Znumtheory Lia Bool String List Ring Field Eqdep_dec.
From Verif Require Import Base BaseFacts Zmod Fields ModelScalar ModelSecp SpecSecp ProofFp ProofFastP ProofCurve ProofAb OrderCert.
Import ListNotations.
Open Scope Z_scope.

(** the points of the curve *)
Definition curveb (a : pt) : bool :=
  match a with None => true | Some (x, y) => feqb (fmul y y) (rhs x) end.
Lemma curveb_iff a : curveb a = true <-> curve a.
Proof. destruct a as [[x y]|]; cbn [curveb curve]; [apply feqb_eq|tauto]. Qed.
Record cpt := mkcpt { cp : pt; cp_ok : curveb cp = true }.
Lemma cpt_eq (a b : cpt) : cp a = cp b -> a = b.
Proof. destruct a as [a Ha], b as [b Hb]. cbn. intros ->. f_equal. apply UIP_dec. apply bool_dec. Qed.
Lemma cp_curve (a : cpt) : curve (cp a). Proof. apply curveb_iff. apply cp_ok. Qed.
Definition czero : cpt := mkcpt None eq_refl.
Definition cadd' (a b : cpt) : cpt :=
  mkcpt (pt_add (cp a) (cp b)) (proj2 (curveb_iff _) (pt_add_curve _ _ (cp_curve a) (cp_curve b))).
Definition cneg (a : cpt) : cpt := mkcpt (pt_neg (cp a)) (proj2 (curveb_iff _) (curve_neg _ (cp_curve a))).
Lemma cadd'_assoc a b c : cadd' a (cadd' b c) = cadd' (cadd' a b) c.
Proof. apply cpt_eq. cbn [cp cadd']. apply pt_add_assoc; apply cp_curve. Qed.
Lemma cadd'_comm a b : cadd' a b = cadd' b a.
Proof. apply cpt_eq. cbn [cp cadd']. apply pt_add_comm; apply cp_curve. Qed.
Lemma cadd'_0_l a : cadd' czero a = a. Proof. apply cpt_eq. reflexivity. Qed.
Lemma cadd'_neg a : cadd' a (cneg a) = czero.
Proof. apply cpt_eq. cbn [cp cadd' cneg czero]. apply pt_add_neg. apply cp_curve. Qed.
Notation cmul := (zmul czero cadd' cneg).
Notation L1 := cadd'_assoc. Notation L2 := cadd'_comm. Notation L3 := cadd'_0_l. Notation L4 := cadd'_neg.

Definition cgen : cpt.
Proof. refine (mkcpt pt_gen _). vm_cast_no_check (eq_refl true). Defined.
Lemma cgen_nz : cgen <> czero. Proof. intros H. apply (f_equal cp) in H. discriminate H. Qed.

(** ** q G = O by a checked chain *)
Definition gx : Z := 0x79BE667EF9DCBBAC55A06295CE870B07029BFCDB2DCE28D959F2815B16F81798.
Definition gy : Z := 0x483ADA7726A3C4655DA4FBFC0E1108A8FD17B448A68554199C47D08FFB10D4B8.
Definition den (P : Z * Z) : pt := Some (of_Z p (fst P), of_Z p (snd P)).
Definition step_dbl (l : Z) (P : Z * Z) : option (Z * Z) :=
  let '(x, y) := P in
  if is_zero_p (2 * (y * l) - 3 * (x * x)) then
    let x3 := red (l * l - 2 * x) in Some (x3, red (l * (x - x3) - y))
  else None.
Definition step_add (l : Z) (P Q : Z * Z) : option (Z * Z) :=
  let '(x1, y1) := P in let '(x2, y2) := Q in
  if (x1 - x2) mod p =? 0 then None
  else if is_zero_p (l * (x2 - x1) - (y2 - y1)) then
    let x3 := red (l * l - x1 - x2) in Some (x3, red (l * (x1 - x3) - y1))
  else None.
Lemma step_dbl_sound l P P' : curve (den P) -> step_dbl l P = Some P' -> den P' = pt_add (den P) (den P).
Proof.
  destruct P as [x y]. unfold den. cbn [fst snd curve]. intros C H. unfold step_dbl in H.
  destruct (is_zero_p _) eqn:Z; [|discriminate H]. apply is_zero_p_sound in Z. injection H as <-. cbn [fst snd].
  rewrite !red_spec, !of_Z_sub, !of_Z_mul, !of_Z_sub, !red_spec, !of_Z_sub, !of_Z_mul in *.
  pose proof (eqn_y _ _ C) as N. cbn [pt_add]. rewrite !feqb_refl. rewrite (proj2 (feqb_neq _ _ _) N). cbn [andb negb].
  assert (E : of_Z p l = fdiv (fmul (of_Z p 3) (fmul (of_Z p x) (of_Z p x))) (fmul (of_Z p 2) (of_Z p y))).
  { apply fsub_eq0 in Z. pose proof two_neq0. transitivity (fdiv (fmul (of_Z p 2) (fmul (of_Z p y) (of_Z p l))) (fmul (of_Z p 2) (of_Z p y))).
    - field. auto.
    - rewrite Z. reflexivity. }
  rewrite <- E. reflexivity.
Qed.
Lemma step_add_sound l P Q P' : step_add l P Q = Some P' -> den P' = pt_add (den P) (den Q).
Proof.
  destruct P as [x1 y1], Q as [x2 y2]. unfold den. cbn [fst snd]. unfold step_add.
  destruct (Z.eqb_spec ((x1 - x2) mod p) 0) as [|NZ]; [discriminate|].
  destruct (is_zero_p _) eqn:Z; [|discriminate]. apply is_zero_p_sound in Z. intros H. injection H as <-. cbn [fst snd].
  assert (N : of_Z p x1 <> of_Z p x2).
  { intros E. apply NZ. apply of_Z_eq_iff in E. rewrite Zminus_mod, E, Z.sub_diag. reflexivity. }
  rewrite !red_spec, !of_Z_sub, !of_Z_mul, !of_Z_sub, !red_spec, !of_Z_sub, !of_Z_mul in *.
  cbn [pt_add]. rewrite (proj2 (feqb_neq _ _ _) N).
  assert (E : of_Z p l = fdiv (fsub (of_Z p y2) (of_Z p y1)) (fsub (of_Z p x2) (of_Z p x1))).
  { apply fsub_eq0 in Z. rewrite <- Z. field. apply sub_neq0. congruence. }
  rewrite <- E. reflexivity.
Qed.

Fixpoint run_cert (c : list (Z * Z * Z)) (D : Z * Z) (acc : option (Z * Z)) : option ((Z * Z) * option (Z * Z)) :=
  match c with
  | [] => Some (D, acc)
  | (s, la, ld) :: c =>
    let S := if s =? 1 then D else (fst D, - snd D) in
    let acc' := if s =? 0 then Some acc
                else match acc with None => Some (Some S) | Some A =>
                       match step_add la A S with Some B => Some (Some B) | None => None end end in
    match acc', step_dbl ld D with
    | Some a, Some D' => run_cert c D' a
    | _, _ => None
    end
  end.
(** value of the signed digits *)
Fixpoint digits (c : list (Z * Z * Z)) : Z :=
  match c with [] => 0 | (s, _, _) :: c => (if s =? 0 then 0 else if s =? 1 then 1 else -1) + 2 * digits c end.
Definition acc_den (a : option (Z * Z)) (v : cpt) : Prop :=
  match a with None => v = czero | Some A => den A = cp v end.
Lemma run_cert_sound c : forall D acc i v R a, den D = cp (cmul i cgen) -> acc_den acc (cmul v cgen) ->
  run_cert c D acc = Some (R, a) ->
  den R = cp (cmul (i * 2 ^ Z.of_nat (length c)) cgen) /\ acc_den a (cmul (v + i * digits c) cgen).
Proof.
  induction c as [|[[s la] ld] c IH]; intros D acc i v R a HD HA H.
  - cbn [run_cert length digits] in *. injection H as <- <-. cbn. rewrite Z.mul_1_r, Z.mul_0_r, Z.add_0_r. auto.
  - cbn [run_cert] in H.
    set (acc' := if s =? 0 then Some acc else _) in H. destruct acc' as [a1|] eqn:EA; [|discriminate H].
    destruct (step_dbl ld D) as [D'|] eqn:ED; [|discriminate H].
    apply step_dbl_sound in ED; [|rewrite HD; apply cp_curve].
    assert (HD' : den D' = cp (cmul (2 * i) cgen)).
    { rewrite ED, HD. replace (2 * i) with (i + i) by lia. rewrite (zmul_add _ _ _ L1 L2 L3 L4). reflexivity. }
    assert (HS : den (if s =? 1 then D else (fst D, - snd D)) = cp (cmul (if s =? 1 then i else - i) cgen)).
    { destruct (s =? 1); [exact HD|]. rewrite (zmul_neg _ _ _ L1 L2 L3 L4). cbn [cp cneg]. rewrite <- HD.
      unfold den. cbn [fst snd pt_neg]. now rewrite of_Z_opp. }
    assert (HA' : acc_den a1 (cmul (v + (if s =? 0 then 0 else if s =? 1 then i else - i)) cgen)).
    { subst acc'. destruct (s =? 0); [injection EA as <-; rewrite Z.add_0_r; exact HA|].
      destruct acc as [A|]; cbn [acc_den] in HA.
      - destruct (step_add la A _) as [B|] eqn:EB; [|discriminate EA]. injection EA as <-.
        apply step_add_sound in EB. cbn [acc_den]. rewrite EB, HA, HS. rewrite (zmul_add _ _ _ L1 L2 L3 L4). reflexivity.
      - injection EA as <-. cbn [acc_den]. rewrite HS. rewrite (zmul_add _ _ _ L1 L2 L3 L4), HA, L3. reflexivity. }
    destruct (IH _ _ _ _ _ _ HD' HA' H) as [R1 R2]. cbn [length digits]. split.
    + rewrite R1. f_equal. f_equal. rewrite Nat2Z.inj_succ, Z.pow_succ_r by lia. lia.
    + replace (v + i * ((if s =? 0 then 0 else if s =? 1 then 1 else -1) + 2 * digits c))
        with (v + (if s =? 0 then 0 else if s =? 1 then i else - i) + 2 * i * digits c); [exact R2|].
      destruct (s =? 0); [lia|]. destruct (s =? 1); lia.
Qed.
Definition check_cert (c : list (Z * Z * Z)) : bool :=
  match run_cert c (gx, gy) None with
  | Some ((x1, y1), Some (x2, y2)) => is_zero_p (x1 - x2) && is_zero_p (y1 - y2)
  | _ => false
  end.
Lemma check_cert_sound c n : check_cert c = true -> 2 ^ Z.of_nat (length c) - digits c = n -> cmul n cgen = czero.
Proof.
  unfold check_cert. intros H <-. destruct (run_cert c (gx, gy) None) as [[[x1 y1] [[x2 y2]|]]|] eqn:E; try discriminate H.
  apply andb_true_iff in H. destruct H as [H1 H2]. apply is_zero_p_sound in H1, H2. rewrite of_Z_sub in H1, H2. apply fsub_eq0 in H1, H2.
  destruct (run_cert_sound c (gx, gy) None 1 0 _ _ eq_refl eq_refl E) as [R1 R2]. rewrite !Z.mul_1_l in *. rewrite Z.add_0_l in R2.
  cbn [acc_den] in R2. unfold den in R1, R2. cbn [fst snd] in R1, R2. rewrite H1, H2 in R1. rewrite R1 in R2. apply cpt_eq in R2.
  unfold Z.sub. rewrite (zmul_add _ _ _ L1 L2 L3 L4), (zmul_neg _ _ _ L1 L2 L3 L4), R2. apply L4.
Qed.
Lemma cert_checked : check_cert cert = true.
Proof. vm_cast_no_check (eq_refl true). Qed.
Lemma cert_digits : 2 ^ Z.of_nat (length cert) - digits cert = q.
Proof. vm_compute. reflexivity. Qed.
Lemma q_gen : cmul q cgen = czero.
Proof. exact (check_cert_sound cert q cert_checked cert_digits). Qed.

(** ** counting: the multiples of G are all points *)
Definition some_points (n : nat) : list pt :=
  None :: flat_map (fun i => let x := of_Z p (Z.of_nat i) in let r := fst (fp_sqrt (rhs x)) in [Some (x, r); Some (x, fneg r)]) (seq 0 n).
Lemma some_points_length n : length (some_points n) = S (2 * n).
Proof.
  unfold some_points. cbn [length]. f_equal. rewrite <- (seq_length n 0) at 2. induction (seq 0 n) as [|i l IH]; [reflexivity|].
  cbn [flat_map app length]. rewrite IH. lia.
Qed.
Lemma some_points_all n a : Z.of_nat n = p -> curve a -> In a (some_points n).
Proof.
  intros Hn C. destruct a as [[x y]|]; [right|left; reflexivity]. apply in_flat_map. exists (Z.to_nat (fv x)).
  pose proof (Fp_range x) as R. split; [apply in_seq; lia|]. rewrite Z2Nat.id, of_Z_fv by lia. cbv zeta.
  assert (S : is_square (rhs x)) by (exists y; symmetry; exact C). apply fp_sqrt_square in S. destruct S as (r & -> & E). cbn [fst].
  cbn [curve] in C. unfold eqn in C. change (fadd (fmul (fmul x x) x) (of_Z p 7)) with (rhs x) in C. rewrite <- E in C.
  apply square_eq in C. destruct C as [->| ->]; [left; reflexivity|right; left; reflexivity].
Qed.

Definition coset (P : cpt) (n : nat) : list pt := map (fun j => cp (cadd' P (cmul (Z.of_nat j) cgen))) (seq 0 n).
Definition in_gen (P : cpt) : Prop := exists j, P = cmul j cgen.
Lemma gen_mod j : cmul (j mod q) cgen = cmul j cgen.
Proof. apply (zmul_mod _ _ _ L1 L2 L3 L4); [discriminate|exact q_gen]. Qed.
Lemma gen_inj n i j : Z.of_nat n = q -> (i < n)%nat -> (j < n)%nat -> cmul (Z.of_nat i) cgen = cmul (Z.of_nat j) cgen -> i = j.
Proof.
  intros Hn Hi Hj E. assert (Z0 : cmul (Z.of_nat i - Z.of_nat j) cgen = czero).
  { unfold Z.sub. rewrite (zmul_add _ _ _ L1 L2 L3 L4), (zmul_neg _ _ _ L1 L2 L3 L4), E. apply L4. }
  destruct (zmul_zero _ _ _ L1 L2 L3 L4 q _ _ q_prime q_gen Z0) as [D|D]; [|contradiction (cgen_nz D)].
  apply Nat2Z.inj. apply Z.mod_divide in D; [|discriminate]. destruct D as [k D]. assert (k = 0) by nia. lia.
Qed.
Lemma coset_nodup P n : Z.of_nat n = q -> NoDup (coset P n).
Proof.
  intros Hn. unfold coset. apply NoDup_map_inj; [|apply seq_NoDup]. intros i j Hi Hj E.
  apply in_seq in Hi, Hj. apply cpt_eq in E. apply (ab_cancel _ _ _ L1 L2 L3 L4) in E. apply (gen_inj n); [exact Hn|lia|lia|exact E].
Qed.
Lemma coset_disjoint P Q n x : In x (coset P n) -> In x (coset Q n) -> in_gen (cadd' Q (cneg P)).
Proof.
  unfold coset. intros HP HQ. apply in_map_iff in HP, HQ. destruct HP as (i & <- & _), HQ as (j & E & _). apply cpt_eq in E.
  exists (Z.of_nat i - Z.of_nat j). unfold Z.sub. rewrite (zmul_add _ _ _ L1 L2 L3 L4), (zmul_neg _ _ _ L1 L2 L3 L4).
  apply (ab_cancel _ _ _ L1 L2 L3 L4 (cadd' P (cmul (Z.of_nat j) cgen))).
  transitivity (cadd' Q (cmul (Z.of_nat j) cgen)).
  - rewrite (L2 Q (cneg P)), L1. rewrite (L2 P (cmul _ _)), <- (L1 _ P), L4. rewrite (L2 _ czero), L3. apply L2.
  - rewrite E. rewrite (L2 (cmul (Z.of_nat i) cgen) (cneg _)), L1, <- (L1 P), L4, (L2 P czero), L3. reflexivity.
Qed.
Lemma nodup_app {A} (l l' : list A) : NoDup l -> NoDup l' -> (forall x, In x l -> In x l' -> False) -> NoDup (l ++ l').
Proof.
  induction l as [|a l IH]; intros H H' D; [exact H'|]. inversion H; subst. cbn [app]. constructor.
  - intros I. apply in_app_iff in I. destruct I as [I|I]; [contradiction|]. exact (D a (or_introl eq_refl) I).
  - apply IH; [assumption..|]. intros x I I'. exact (D x (or_intror I) I').
Qed.
Lemma pt_dec (a b : pt) : {a = b} + {a <> b}.
Proof. decide equality. decide equality; apply fe_dec. Qed.
Lemma nat_of z : 0 <= z -> exists n, Z.of_nat n = z.
Proof. intros H. exists (Z.to_nat z). now apply Z2Nat.id. Qed.
Lemma nat_q : exists n, Z.of_nat n = q. Proof. apply nat_of. discriminate. Qed.
Lemma nat_p : exists n, Z.of_nat n = p. Proof. apply nat_of. discriminate. Qed.
Lemma in_gen_dec P : in_gen P \/ ~ in_gen P.
Proof.
  destruct nat_q as [n Hn]. destruct (in_dec pt_dec (cp P) (coset czero n)) as [H|H].
  - left. apply in_map_iff in H. destruct H as (j & E & _). exists (Z.of_nat j). apply cpt_eq in E. now rewrite <- E, L3.
  - right. intros [j E]. apply H. apply in_map_iff. exists (Z.to_nat (j mod q)).
    pose proof (Z.mod_pos_bound j q ltac:(reflexivity)) as B. rewrite Z2Nat.id by lia. split.
    + f_equal. rewrite L3, gen_mod. symmetry. exact E.
    + apply in_seq. lia.
Qed.
Lemma three_cosets P np nq : Z.of_nat np = p -> Z.of_nat nq = q -> ~ in_gen P -> ~ in_gen (cadd' P P) -> False.
Proof.
  intros Hp Hq A B.
  assert (ND : NoDup (coset czero nq ++ coset P nq ++ coset (cadd' P P) nq)).
  { apply nodup_app; [apply coset_nodup; exact Hq| |].
    - apply nodup_app; [apply coset_nodup; exact Hq..|]. intros x I J. apply A. pose proof (coset_disjoint _ _ _ _ I J) as D.
      rewrite <- L1, L4, (L2 P czero), L3 in D. exact D.
    - intros x I J. apply in_app_iff in J. destruct J as [J|J]; pose proof (coset_disjoint _ _ _ _ I J) as D;
        rewrite (ab_neg_z _ _ _ L1 L2 L3 L4), (L2 _ czero), L3 in D; contradiction. }
  assert (IN : incl (coset czero nq ++ coset P nq ++ coset (cadd' P P) nq) (some_points np)).
  { intros x I. apply some_points_all; [exact Hp|].
    assert (C : forall R, In x (coset R nq) -> curve x) by (intros R J; apply in_map_iff in J; destruct J as (j & <- & _); apply cp_curve).
    apply in_app_iff in I. destruct I as [I|I]; [exact (C _ I)|]. apply in_app_iff in I. destruct I as [I|I]; exact (C _ I). }
  pose proof (NoDup_incl_length ND IN) as L. rewrite !app_length, some_points_length in L. unfold coset in L. rewrite !map_length, !seq_length in L.
  apply Nat2Z.inj_le in L. rewrite !Nat2Z.inj_add, Nat2Z.inj_succ, Nat2Z.inj_mul, Hp, Hq in L. unfold p, q in L. lia.
Qed.
Lemma no_torsion2 P : cadd' P P = czero -> P = czero.
Proof.
  destruct P as [[[x y]|] C]; intros H; [|apply cpt_eq; reflexivity]. exfalso. apply (f_equal cp) in H. cbn [cp cadd' czero pt_add] in H.
  rewrite !feqb_refl in H. apply curveb_iff in C. rewrite (proj2 (feqb_neq _ _ _) (eqn_y _ _ C)) in H. discriminate H.
Qed.
Lemma all_gen P : in_gen P.
Proof.
  destruct (in_gen_dec P) as [H|H]; [exact H|]. destruct (in_gen_dec (cadd' P P)) as [[j E]|H2].
  2:{ exfalso. destruct nat_p as [np Hp], nat_q as [nq Hq]. exact (three_cosets P np nq Hp Hq H H2). }
  exists (j * ((q + 1) / 2)). set (h := cmul (j * ((q + 1) / 2)) cgen).
  assert (D : cadd' h h = cmul j cgen).
  { unfold h. rewrite <- (zmul_add _ _ _ L1 L2 L3 L4). rewrite <- (gen_mod (_ + _)), <- (gen_mod j). f_equal.
    replace (j * ((q + 1) / 2) + j * ((q + 1) / 2)) with (j + j * q); [apply Z.mod_add; discriminate|].
    assert (2 * ((q + 1) / 2) = q + 1) by (vm_compute; reflexivity). nia. }
  assert (T : cadd' (cadd' P (cneg h)) (cadd' P (cneg h)) = czero).
  { rewrite (ab_swap _ L1 L2), E, <- D, <- (ab_neg_add _ _ _ L1 L2 L3 L4). apply L4. }
  apply no_torsion2 in T. apply (ab_neg_uniq _ _ _ L1 L2 L3 L4) in T.
  rewrite <- (ab_neg_neg _ _ _ L1 L2 L3 L4 P), <- T. apply (ab_neg_neg _ _ _ L1 L2 L3 L4).
Qed.
Lemma q_all P : cmul q P = czero.
Proof.
  destruct (all_gen P) as [j ->]. rewrite <- (zmul_mul _ _ _ L1 L2 L3 L4), Z.mul_comm, (zmul_mul _ _ _ L1 L2 L3 L4), q_gen.
  apply (zmul_z _ _ _ L1 L2 L3 L4).
Qed.
