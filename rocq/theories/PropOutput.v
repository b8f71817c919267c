(** Property C68: what a random oracle hashes and what it outputs. *)
From Coq Require Import ZArith Lia Bool List Permutation Sorted DecimalString String List.
From Verif Require Import Base BaseFacts Zmod Fields ModelScalar ProofScalar ModelXmd SpecXmd ProofXmd ModelRo SpecRo ProofRo ModelGroup
  ModelComplaint ModelRoPoints ProofDecimal.
From Verif Require Import Toy.
Import ListNotations.
Open Scope Z_scope.

(** ** Specification *)

(** RFC 9380 section 5.2 hash_to_field for the field of q elements, m = 1 and
    L = ceil((256 + 128) / 8) = 48 *)
Definition rfc_scalars (H : bytes -> bytes) (msg dst : bytes) (count : nat) : option (list Fq) :=
  option_map (fun uniform => map (fun i => of_Z q (be_val (firstn 48 (skipn (48 * i) uniform)))) (seq 0 count))
             (rfc_expand H msg dst (48 * Z.of_nat count)).

(** the string hashed for a table of named inputs: entries in the order of
    their names, each as length and name, type, 4-byte length and data *)
Definition entry_string (e : bytes * (bytes * Z)) : bytes :=
  let '(name, (d, t)) := e in I2OSP (blen name) 1 ++ name ++ [t] ++ I2OSP (blen d) 4 ++ d.
Definition table_string (l : list (bytes * (bytes * Z))) : bytes := List.concat (map entry_string l).

(** ** Output scalars *)
Theorem C68_hash_to_scalar_is_rfc9380 : forall (X : Oracles) (HX : oracles_ok X) count msg dst,
  (0 <= count -> hash_to_scalar count msg dst =
     match rfc_scalars sha256 msg dst (Z.to_nat count) with Some l => Ok l | None => Err end) /\
  (hash_to_scalar count msg dst = Err <-> 170 < count) /\ (hash_to_scalar count msg dst = Panic <-> count < 0) /\
  hash_to_scalar count msg dst <> Diverge.
Proof.
  intros X HX count msg dst.
  assert (A : 0 <= count -> hash_to_scalar count msg dst =
     match rfc_scalars sha256 msg dst (Z.to_nat count) with Some l => Ok l | None => Err end).
  { intro H. unfold hash_to_scalar, rfc_scalars. rewrite Z2Nat.id, (Z.mul_comm 48) by lia. rewrite (expand_is_rfc HX) by lia.
    destruct (rfc_expand sha256 msg dst (count * 48)) as [o|]; [|reflexivity]. cbn [bind option_map].
    induction (seq 0 (Z.to_nat count)) as [|k l IH]; [reflexivity|]. cbn [mapM map]. rewrite IH.
    unfold scalar_from_bytes_wide. rewrite wide_spec. destruct (Z.ltb_spec 64 (blen (chunk48 o k))) as [L|L]; [|reflexivity].
    unfold blen, chunk48 in L. rewrite firstn_length in L. lia. }
  split; [exact A|]. destruct (Z_lt_le_dec count 0) as [H|H].
  - unfold hash_to_scalar. rewrite expand_panic by lia. cbn [bind].
    repeat split; intros; try discriminate; try lia.
  - rewrite A by exact H. unfold rfc_scalars, rfc_expand. rewrite Z2Nat.id by exact H. unfold ell_of.
    assert (E : (255 <? (48 * count + 31) / 32) = (170 <? count)).
    { destruct (Z.ltb_spec 170 count).
      - apply Z.ltb_lt. apply Z.lt_le_trans with 256; [lia|]. apply Z.div_le_lower_bound; lia.
      - apply Z.ltb_ge. apply Z.lt_succ_r. apply Z.div_lt_upper_bound; lia. }
    rewrite E. destruct (Z.ltb_spec 170 count) as [L|L]; cbn [option_map]; repeat split; intros; try discriminate; try lia; reflexivity.
Qed.
Print Assumptions C68_hash_to_scalar_is_rfc9380.

(** ** The string that is hashed *)
Definition stored (e : bytes * (bytes * Z)) : bytes * bytes := (fst e, enc (snd e)).
Definition by_name (a b : bytes * (bytes * Z)) : Prop := bytes_ltb (fst a) (fst b) = true.

Lemma lookup_in l n v : sorted l -> (lookup n l = Some v <-> In (n, v) l).
Proof.
  induction 1 as [|[k w] l S IH F]; [split; [discriminate|intros []]|]. cbn [lookup In].
  destruct (bytes_eqb k n) eqn:E.
  - apply bytes_eqb_eq in E. subst k. split; [intros [= ->]; left; reflexivity|]. intros [[= ->]|I]; [reflexivity|].
    rewrite Forall_forall in F. apply F in I. unfold key_lt in I. cbn [fst] in I. rewrite bytes_ltb_irrefl in I. discriminate.
  - rewrite IH. split; [auto|]. intros [[= -> ->]|I]; [rewrite bytes_eqb_refl in E; discriminate|exact I].
Qed.
Lemma stored_sorted l : StronglySorted by_name l <-> sorted (map stored l).
Proof.
  unfold sorted. induction l as [|e l IH]; [split; constructor|]. cbn [map]. split; intro S; inversion S as [|? ? A B]; subst.
  - constructor; [apply IH, A|]. apply Forall_map. exact B.
  - constructor; [apply IH, A|]. rewrite Forall_map in B. exact B.
Qed.
Lemma stored_exists i : Forall entry_wf i -> exists l, i = map stored l /\ Forall (fun e => blen (fst e) <= 255 /\ blen (fst (snd e)) <= 255) l.
Proof.
  induction 1 as [|[n v] i (Hn & d & t & E & Hd) F (l & -> & Hl)]; [exists []; split; constructor|]. cbn [fst snd] in *. subst v.
  exists ((n, (d, t)) :: l). split; [reflexivity|]. constructor; [cbn [fst snd]; lia|exact Hl].
Qed.
Lemma table_string_spec l : Forall (fun e => blen (fst e) <= 255 /\ blen (fst (snd e)) <= 255) l -> table_string l = flat_map entry_bytes (map stored l).
Proof.
  unfold table_string. induction 1 as [|[n [d t]] l [Hn Hd] F IH]; [reflexivity|]. cbn [map List.concat flat_map]. rewrite IH. f_equal.
  cbn [fst snd] in *. unfold entry_string, stored, entry_bytes, enc, I2OSP. cbn [fst snd]. unfold u8, u32.
  pose proof (blen_nonneg n). pose proof (blen_nonneg d). rewrite !Z.mod_small by lia. replace (be_bytes 1 (blen n)) with [blen n]; [reflexivity|]. change (be_bytes 1 (blen n)) with [blen n mod 256]. rewrite Z.mod_small by lia. reflexivity.
Qed.

Theorem C68_input_string : forall dst calls m,
  ro_form (run (new_ro dst) calls) = Ok m <->
  exists l, l <> [] /\ m = table_string l /\ StronglySorted by_name l /\
    forall name v, In (name, v) l <-> content calls name = Some v.
Proof.
  intros dst calls m. pose proof (run_sorted calls _ (new_ro_sorted dst)) as S. pose proof (run_wf calls _ (new_ro_wf dst)) as W.
  pose proof (run_lookup calls (new_ro dst)) as L. cbn [new_ro ro_inputs lookup] in L.
  set (i := ro_inputs (run (new_ro dst) calls)) in *. unfold ro_form. fold i. split.
  - intro E. destruct (stored_exists i W) as (l & Hi & Hl). exists l. rewrite Hi in *. repeat split.
    + intros ->. cbn [map] in E. discriminate.
    + rewrite table_string_spec by exact Hl. destruct (map stored l); [discriminate|]. congruence.
    + apply stored_sorted, S.
    + intro I. assert (I' : In (name, enc v) (map stored l)) by (apply (in_map stored) in I; exact I).
      apply lookup_in in I'; [|exact S]. rewrite L in I'. destruct (content calls name) as [[d t]|] eqn:C; [|discriminate]. cbn [option_map] in I'.
      apply (f_equal (fun o => match o with Some x => x | None => [] end)) in I'.
      rewrite (enc_inj (d, t) v); [reflexivity|cbn [fst]; eapply content_wf, C| |exact I'].
      rewrite Forall_forall in Hl. apply (Hl _ I).
    + intro C. pose proof (L name) as Ln. rewrite C in Ln. cbn [option_map] in Ln. apply lookup_in in Ln; [|exact S].
      apply in_map_iff in Ln. destruct Ln as ([n w] & Hnw & I). pose proof (f_equal snd Hnw) as Hw. apply (f_equal fst) in Hnw. unfold stored in Hnw, Hw. cbn [fst snd] in Hnw, Hw. subst n.
      destruct v as [d t]. rewrite Forall_forall in Hl. pose proof (Hl _ I) as [_ Hd]. cbn [fst snd] in Hd.
      rewrite <- (enc_inj w (d, t)); [exact I|exact Hd|cbn [fst]; eapply content_wf, C|exact Hw].
  - intros (l & Hl & -> & Sl & C).
    assert (F : Forall (fun e => blen (fst e) <= 255 /\ blen (fst (snd e)) <= 255) l).
    { apply Forall_forall. intros [n [d t]] I. cbn [fst snd]. apply C in I. split; [|eapply content_wf, I].
      clear - I. induction calls as [|[[m d'] t'] calls IH]; cbn [content] in I; [discriminate|].
      destruct (bytes_eqb m n && call_wf (m, d', t')) eqn:E; [|auto]. apply andb_prop in E. destruct E as [E W]. apply bytes_eqb_eq in E. subst m.
      unfold call_wf in W. apply andb_prop in W. destruct W as [W _]. apply andb_prop in W. destruct W as [_ W]. apply Z.leb_le in W. exact W. }
    assert (Hi : i = map stored l).
    { apply sorted_ext; [exact S|apply stored_sorted, Sl|]. intro n. rewrite L. destruct (content calls n) as [v|] eqn:Cn; cbn [option_map].
      - symmetry. apply lookup_in; [apply stored_sorted, Sl|]. apply C in Cn. apply (in_map stored) in Cn. exact Cn.
      - destruct (lookup n (map stored l)) as [w|] eqn:E; [|reflexivity]. exfalso. apply lookup_in in E; [|apply stored_sorted, Sl].
        apply in_map_iff in E. destruct E as ([n' v] & Hnv & I). apply (f_equal fst) in Hnv. unfold stored in Hnv. cbn [fst snd] in Hnv. subst n'.
        apply C in I. congruence. }
    rewrite table_string_spec by exact F. rewrite Hi. destruct l as [|e l]; [congruence|]. reflexivity.
Qed.
Print Assumptions C68_input_string.

(** the outputs, from the table to the values: the domain separator of scalars
    and points is extended by the name of the curve *)
Theorem C68_outputs : forall (X : Oracles) (HX : oracles_ok X) (GO : Grp) dst calls m,
  ro_form (run (new_ro dst) calls) = Ok m -> let r := run (new_ro dst) calls in let d := dst ++ str "-secp256k1" in
  (forall count, 0 <= count <= 170 -> exists l, rfc_scalars sha256 m d (Z.to_nat count) = Some l /\ ro_output_scalars r count = Ok l) /\
  (exists s, rfc_scalars sha256 m d 1 = Some [s] /\ ro_output_scalar r = Ok s) /\
  (forall len, 0 <= len <= 8160 -> exists b, rfc_expand sha256 m dst len = Some b /\ ro_output_bytes r len = Ok b) /\
  ro_output_point r = h2p m d.
Proof.
  intros X HX GO dst calls m E r d.
  assert (Ed : curve_dst (ro_dst r) = d).
  { unfold r. rewrite run_dst. unfold curve_dst, d. cbn [new_ro ro_dst]. reflexivity. }
  assert (S : forall count, 0 <= count <= 170 -> exists l, rfc_scalars sha256 m d (Z.to_nat count) = Some l /\ ro_output_scalars r count = Ok l).
  { intros count H. unfold ro_output_scalars. fold r in E. rewrite E, Ed. cbn [bind].
    destruct (C68_hash_to_scalar_is_rfc9380 X HX count m d) as (A & B & _). rewrite A by lia. specialize (A ltac:(lia)).
    destruct (rfc_scalars sha256 m d (Z.to_nat count)) as [l|]; [exists l; split; reflexivity|]. apply B in A. lia. }
  split; [exact S|]. split; [|split].
  - destruct (S 1 ltac:(lia)) as (l & El & Er). change (Z.to_nat 1) with 1%nat in El.
    assert (exists s, l = [s]) as [s ->].
    { unfold rfc_scalars in El. destruct (rfc_expand sha256 m d _); [|discriminate]. cbn [option_map seq map] in El. injection El as <-. eexists. reflexivity. }
    exists s. split; [exact El|]. unfold ro_output_scalar. rewrite Er. reflexivity.
  - intros len H. unfold ro_output_bytes. fold r in E. rewrite E. cbn [bind]. rewrite (expand_is_rfc HX) by lia.
    unfold r. rewrite run_dst. cbn [new_ro ro_dst]. unfold rfc_expand.
    assert (ell_of len <= 255). { unfold ell_of. apply Z.lt_succ_r. apply Z.div_lt_upper_bound; lia. }
    destruct (Z.ltb_spec 255 (ell_of len)); [lia|]. eexists. split; reflexivity.
  - unfold ro_output_point. fold r in E. rewrite E, Ed. reflexivity.
Qed.
Print Assumptions C68_outputs.

(** ** AddPoints *)
Lemma decimal_no_bracket z : ~ In 91 (decimal z).
Proof.
  assert (U : forall u, ~ In 91 (str (NilEmpty.string_of_uint u))).
  { induction u; [intros []| | | | | | | | | |]; cbn [NilEmpty.string_of_uint]; intros [E|E]; try (vm_compute in E; discriminate); apply IHu, E. }
  unfold decimal. destruct (Z.to_int z) as [u|u]; cbn [NilEmpty.string_of_int]; [apply U|]. intros [E|E]; [vm_compute in E; discriminate|apply (U u), E].
Qed.
Lemma split_last (a b c d : bytes) : ~ In 91 b -> ~ In 91 d -> a ++ 91 :: b = c ++ 91 :: d -> a = c /\ b = d.
Proof.
  revert c. induction a as [|x a IH]; intros [|y c] Hb Hd E; cbn [app] in E.
  - injection E as ->. split; reflexivity.
  - injection E as <- ->. exfalso. apply Hb, in_or_app. right. left. reflexivity.
  - injection E as -> <-. exfalso. apply Hd, in_or_app. right. left. reflexivity.
  - injection E as -> E. destruct (IH c Hb Hd E) as [-> ->]. split; reflexivity.
Qed.
(** whatever the names contain *)
Theorem C68_indexed_names_distinct : forall n i m j, indexed_name n i = indexed_name m j <-> n = m /\ i = j.
Proof.
  intros n i m j. split; [|intros [-> ->]; reflexivity]. unfold indexed_name. change (str "[") with [91]. change (str "]") with [93]. cbn [app]. intro E.
  apply split_last in E as [-> E].
  - apply app_inj_tail in E. destruct E as [E _]. split; [reflexivity|apply decimal_inj, E].
  - intro I. apply in_app_or in I. destruct I as [I|[I|[]]]; [apply (decimal_no_bracket i), I|discriminate].
  - intro I. apply in_app_or in I. destruct I as [I|[I|[]]]; [apply (decimal_no_bracket j), I|discriminate].
Qed.
Print Assumptions C68_indexed_names_distinct.

(** the AddInput calls that AddPoints amounts to *)
Fixpoint points_calls {GO : Grp} (name : bytes) (i : Z) (pts : list G) : list call :=
  match pts with [] => [] | a :: pts => (indexed_name name i, ser_tagged a, ty_point) :: points_calls name (i + 1) pts end.
(** the i-th name is free and not too long *)
Definition name_free (r : ro) (name : bytes) (i : Z) : Prop :=
  blen (indexed_name name i) <= 255 /\ lookup (indexed_name name i) (ro_inputs r) = None.

Lemma add_points_from_spec {GO : Grp} (GL : GrpLaws GO) name pts : forall i r,
  exists k, (k <= length pts)%nat /\ fst (ro_add_points_from i r name pts) = run r (firstn k (points_calls name i pts)) /\
    (forall j, (j < k)%nat -> name_free r name (i + Z.of_nat j)) /\
    (k = length pts /\ snd (ro_add_points_from i r name pts) = true \/
     (k < length pts)%nat /\ ~ name_free r name (i + Z.of_nat k) /\ snd (ro_add_points_from i r name pts) = false).
Proof.
  induction pts as [|a pts IH]; intros i r.
  - exists 0%nat. cbn [length firstn points_calls run ro_add_points_from fst snd]. split; [lia|]. split; [reflexivity|]. split; [lia|]. left. split; reflexivity.
  - cbn [ro_add_points_from points_calls length]. unfold ro_add_point.
    assert (W : call_wf (indexed_name name i, ser_tagged a, ty_point) = (blen (indexed_name name i) <=? 255)).
    { unfold call_wf. assert (blen (ser_tagged a) = 34) as -> by (unfold ser_tagged; rewrite blen_cons; rewrite ser_len; reflexivity).
      assert (1 <= blen (indexed_name name i)).
      { unfold indexed_name, blen. rewrite !app_length. change (length (str "[")) with 1%nat. lia. }
      destruct (Z.leb_spec 1 (blen (indexed_name name i))); [|lia]. destruct (blen (indexed_name name i) <=? 255); reflexivity. }
    destruct (ro_add_input r (indexed_name name i) (ser_tagged a) ty_point) as [r' ok] eqn:E.
    rewrite ro_add_input_cases, W in E.
    assert (R : run1 r (indexed_name name i, ser_tagged a, ty_point) = r').
    { unfold run1, ro_add_ign. rewrite ro_add_input_cases, W, E. reflexivity. }
    destruct (Z.leb_spec (blen (indexed_name name i)) 255) as [Hl|Hl]; [destruct (lookup (indexed_name name i) (ro_inputs r)) eqn:L|].
    + injection E as <- <-. exists 0%nat. cbn [firstn run fst snd fold_left]. split; [lia|]. split; [reflexivity|]. split; [lia|]. right.
      split; [lia|]. split; [|reflexivity]. rewrite Z.add_0_r. intros [_ H]. congruence.
    + injection E as Er <-. destruct (IH (i + 1) r') as (k & Hk & Hf & Hfree & Hend). exists (S k). cbn [firstn fst snd].
      split; [lia|]. split; [rewrite Hf; unfold run; cbn [fold_left]; rewrite R; reflexivity|].
      assert (B : forall j, name_free r' name (i + 1 + Z.of_nat j) <-> name_free r name (i + Z.of_nat (S j))).
      { intro j. replace (i + 1 + Z.of_nat j) with (i + Z.of_nat (S j)) by lia. unfold name_free. rewrite <- Er. cbn [ro_inputs].
        rewrite lookup_insert by exact L. destruct (bytes_eqb (indexed_name name i) (indexed_name name (i + Z.of_nat (S j)))) eqn:Q; [|reflexivity].
        apply bytes_eqb_eq, C68_indexed_names_distinct in Q. lia. }
      split.
      * intros [|j] Hj; [rewrite Z.add_0_r; split; assumption|]. apply B, Hfree. lia.
      * destruct Hend as [[-> Hs]|(Hlt & Hn & Hs)]; [left; split; [reflexivity|exact Hs]|right].
        split; [lia|]. split; [|exact Hs]. intro Hf'. apply Hn, B, Hf'.
    + injection E as <- <-. exists 0%nat. cbn [firstn run fst snd fold_left]. split; [lia|]. split; [reflexivity|]. split; [lia|]. right.
      split; [lia|]. split; [|reflexivity]. rewrite Z.add_0_r. intros [H _]. lia.
Qed.

(** AddPoints stores the points before the first name that is taken or too
    long, and reports an error exactly if there is such a name; the points
    already stored stay in the oracle. *)
Theorem C68_add_points : forall (GO : Grp) (GL : GrpLaws GO) r name pts,
  (snd (ro_add_points r name pts) = true <-> forall j, (j < length pts)%nat -> name_free r name (Z.of_nat j)) /\
  exists k, (k <= length pts)%nat /\ fst (ro_add_points r name pts) = run r (firstn k (points_calls name 0 pts)) /\
    (forall j, (j < k)%nat -> name_free r name (Z.of_nat j)) /\ ((k < length pts)%nat -> ~ name_free r name (Z.of_nat k)).
Proof.
  intros GO GL r name pts. destruct (add_points_from_spec GL name pts 0 r) as (k & Hk & Hf & Hfree & Hend). fold (ro_add_points r name pts) in *.
  cbn [Z.add] in *. split; [split|].
  - intros Hs j Hj. destruct Hend as [[-> _]|(_ & _ & E)]; [apply Hfree, Hj|congruence].
  - intro H. destruct Hend as [[_ E]|(L & N & _)]; [exact E|]. exfalso. apply N, H, L.
  - exists k. split; [exact Hk|]. split; [exact Hf|]. split; [exact Hfree|]. intro L. destruct Hend as [[-> _]|(_ & N & _)]; [lia|exact N].
Qed.
Print Assumptions C68_add_points.

(** the oracle then binds the list of points *)
Lemma points_content {GO : Grp} name pts : forall i j, (j < length pts)%nat -> (forall t, (t < length pts)%nat -> blen (indexed_name name (i + Z.of_nat t)) <= 255) ->
  forall (GL : GrpLaws GO), content (points_calls name i pts) (indexed_name name (i + Z.of_nat j)) = option_map (fun a => (ser_tagged a, ty_point)) (nth_error pts j).
Proof.
  intros i j Hj Hl GL. revert i j Hj Hl. induction pts as [|a pts IH]; intros i j Hj Hl; [cbn in Hj; lia|]. cbn [points_calls content].
  assert (W : call_wf (indexed_name name i, ser_tagged a, ty_point) = true).
  { unfold call_wf. assert (blen (ser_tagged a) = 34) as -> by (unfold ser_tagged; rewrite blen_cons; rewrite ser_len; reflexivity).
    specialize (Hl 0%nat ltac:(cbn; lia)). rewrite Z.add_0_r in Hl.
    assert (1 <= blen (indexed_name name i)) by (unfold indexed_name, blen; rewrite !app_length; change (length (str "[")) with 1%nat; lia).
    apply andb_true_intro. split; [apply andb_true_intro; split|]; apply Z.leb_le; lia. }
  rewrite W. destruct j as [|j]; [rewrite Z.add_0_r, bytes_eqb_refl; reflexivity|].
  destruct (bytes_eqb (indexed_name name i) (indexed_name name (i + Z.of_nat (S j)))) eqn:Q; [apply bytes_eqb_eq, C68_indexed_names_distinct in Q; lia|].
  cbn [andb nth_error]. replace (i + Z.of_nat (S j)) with (i + 1 + Z.of_nat j) by lia. apply IH; [cbn in Hj; lia|].
  intros t Ht. replace (i + 1 + Z.of_nat t) with (i + Z.of_nat (S t)) by lia. apply Hl. cbn; lia.
Qed.
Lemma points_content_out {GO : Grp} name pts : forall i j, (forall t, (t < length pts)%nat -> j <> i + Z.of_nat t) ->
  content (points_calls name i pts) (indexed_name name j) = None.
Proof.
  induction pts as [|a pts IH]; intros i j H; [reflexivity|]. cbn [points_calls content].
  destruct (bytes_eqb (indexed_name name i) (indexed_name name j)) eqn:Q.
  - apply bytes_eqb_eq, C68_indexed_names_distinct in Q. exfalso. apply (H 0%nat); cbn; lia.
  - cbn [andb]. apply IH. intros t Ht. specialize (H (S t)). cbn [length] in H. lia.
Qed.

Theorem C68_add_points_binds : forall (GO : Grp) (GL : GrpLaws GO) dst dst' name pts pts' r r',
  ro_add_points (new_ro dst) name pts = (r, true) -> ro_add_points (new_ro dst') name pts' = (r', true) ->
  ro_form r = ro_form r' -> pts = pts'.
Proof.
  intros GO GL dst dst' name pts pts' r r' E E' F.
  assert (A : forall dst pts r, ro_add_points (new_ro dst) name pts = (r, true) ->
    r = run (new_ro dst) (points_calls name 0 pts) /\ forall t, (t < length pts)%nat -> blen (indexed_name name (0 + Z.of_nat t)) <= 255).
  { clear - GL. intros dst pts r E. destruct (add_points_from_spec GL name pts 0 (new_ro dst)) as (k & Hk & Hf & Hfree & Hend).
    fold (ro_add_points (new_ro dst) name pts) in *. rewrite E in *. cbn [fst snd] in *.
    destruct Hend as [[-> _]|(_ & _ & X)]; [|discriminate].
    assert (L : length (points_calls name 0 pts) = length pts) by (generalize 0; clear; induction pts; intro i; cbn [points_calls length]; auto).
    rewrite <- L, firstn_all in Hf. split; [exact Hf|]. intros t Ht. apply (Hfree t Ht). }
  apply A in E as [-> L], E' as [-> L']. rewrite ro_form_eq_iff in F. clear A.
  assert (N : forall j, nth_error pts j = nth_error pts' j).
  { intro j. specialize (F (indexed_name name (0 + Z.of_nat j))).
    assert (C : forall l, (forall t, (t < length l)%nat -> blen (indexed_name name (0 + Z.of_nat t)) <= 255) ->
      content (points_calls name 0 l) (indexed_name name (0 + Z.of_nat j)) = option_map (fun a => (ser_tagged a, ty_point)) (nth_error l j)).
    { intros l Hl. destruct (le_lt_dec (length l) j) as [Hj|Hj].
      - rewrite points_content_out by (intros; lia). apply nth_error_None in Hj. rewrite Hj. reflexivity.
      - apply points_content; assumption. }
    rewrite !C in F by assumption. destruct (nth_error pts j) as [a|], (nth_error pts' j) as [b|]; cbn [option_map] in F; try discriminate; [|reflexivity].
    injection F as F. f_equal. apply ser_inj, F. }
  clear - N. revert pts' N. induction pts as [|a pts IH]; intros [|b pts'] N.
  - reflexivity.
  - specialize (N 0%nat). discriminate.
  - specialize (N 0%nat). discriminate.
  - pose proof (N 0%nat) as N0. injection N0 as ->. f_equal. apply IH. intro j. exact (N (S j)).
Qed.
Print Assumptions C68_add_points_binds.

(** AddPoint under an indexed name cannot be told from AddPoints *)
Theorem C68_single_point_same : forall (GO : Grp) r name a, ro_add_points r name [a] = ro_add_point r (name ++ str "[0]") a.
Proof. intros GO r name a. unfold ro_add_points. cbn [ro_add_points_from]. unfold indexed_name. change (decimal 0) with (str "0").
  change (str "[" ++ str "0" ++ str "]") with (str "[0]"). destruct (ro_add_point r (name ++ str "[0]") a) as [r' []]; reflexivity. Qed.
Print Assumptions C68_single_point_same.

Example C68_ex_scalars : match @hash_to_scalar toyX 170 [1] (str "d"), @hash_to_scalar toyX 171 [1] (str "d") with Ok l, Err => Z.of_nat (length l) =? 170 | _, _ => false end = true.
Proof. vm_compute. reflexivity. Qed.
Example C68_ex_string : ro_form (run (new_ro (str "d")) [(str "b", [7], ty_bytes); (str "a", [8; 9], ty_integer); (str "b", [1], ty_bytes)])
  = Ok (table_string [(str "a", ([8; 9], 2)); (str "b", ([7], 1))]).
Proof. reflexivity. Qed.
Example C68_ex_points : let r := fst (ro_add_point (new_ro (str "d")) (str "p[1]") (of_Z q 5)) in
  let '(r', ok) := ro_add_points r (str "p") [of_Z q 1; of_Z q 2; of_Z q 3] in
  (negb ok && match lookup (str "p[0]") (ro_inputs r'), lookup (str "p[2]") (ro_inputs r') with Some _, None => true | _, _ => false end
   && snd (ro_add_points (new_ro (str "d")) (str "p") [of_Z q 1; of_Z q 2; of_Z q 3]))%bool = true.
Proof. vm_compute. reflexivity. Qed.
