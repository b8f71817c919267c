(** Property C109: what the typed inputs of a random oracle bind. *)
From Coq Require Import ZArith Lia Bool String List.
From Verif Require Import Base BaseFacts Zmod Fields ModelScalar ProofScalar ModelXmd ModelRo SpecRo ProofRo ModelGroup ProofZk ProofDecimal PropSeed.
From Verif Require Toy ToyShort.
Import ListNotations.
Open Scope Z_scope.

Section Typed.
Context {GO : Grp}.

(** one call of AddBytesString, AddPoint, AddScalar, AddUint64, AddUint32 *)
Inductive tcall :=
| CallBytes (v : bytes) | CallPoint (a : G) | CallScalar (s : Fq) | CallUint64 (i : Z) | CallUint32 (i : Z).
Definition t_add (r : ro) (c : string * tcall) : ro :=
  match snd c with
  | CallBytes v => add_bytes (fst c) v r
  | CallPoint a => add_point (fst c) a r
  | CallScalar s => add_scalar (fst c) s r
  | CallUint64 i => add_uint64 (fst c) i r
  | CallUint32 i => add_uint32 (fst c) i r
  end.
Definition t_run (r : ro) (l : list (string * tcall)) : ro := fold_left t_add l r.

(** what an oracle should hold: under each name the first value that can be
    represented, an integer whatever its width *)
Inductive tval := ValBytes (v : bytes) | ValPoint (a : G) | ValScalar (s : Fq) | ValInteger (i : Z).
Definition meaning (c : tcall) : option tval :=
  match c with
  | CallBytes v => if (List.length v <=? 255)%nat then Some (ValBytes v) else None
  | CallPoint a => Some (ValPoint a)
  | CallScalar s => Some (ValScalar s)
  | CallUint64 i => Some (ValInteger (i mod 2 ^ 64))
  | CallUint32 i => Some (ValInteger (i mod 2 ^ 32))
  end.
Definition name_ok (n : string) : bool := (1 <=? String.length n)%nat && (String.length n <=? 255)%nat.
Fixpoint holds (l : list (string * tcall)) (n : string) : option tval :=
  match l with
  | [] => None
  | (m, c) :: l => if String.eqb m n && name_ok m then match meaning c with Some v => Some v | None => holds l n end else holds l n
  end.

(** ** The proof goes through the untyped calls *)
Definition raw (c : string * tcall) : call :=
  (str (fst c),
   match snd c with
   | CallBytes v => v | CallPoint a => ser_tagged a | CallScalar s => scalar_serialize_tagged s
   | CallUint64 i => be_bytes 8 (u64 i) | CallUint32 i => be_bytes 8 (u32 i)
   end,
   match snd c with CallBytes _ => ty_bytes | CallPoint _ => ty_point | CallScalar _ => ty_scalar | _ => ty_integer end).
Definition vraw (v : tval) : bytes * Z :=
  match v with
  | ValBytes v => (v, ty_bytes) | ValPoint a => (ser_tagged a, ty_point) | ValScalar s => (scalar_serialize_tagged s, ty_scalar)
  | ValInteger i => (be_bytes 8 i, ty_integer)
  end.
Lemma t_run_raw l : forall r, t_run r l = run r (map raw l).
Proof.
  induction l as [|[n c] l IH]; intros r; [reflexivity|]. unfold t_run, run in *. cbn [fold_left map]. rewrite <- IH. f_equal.
  destruct c; reflexivity.
Qed.
Lemma str_length s : blen (str s) = Z.of_nat (String.length s).
Proof. unfold blen. f_equal. unfold str. induction s as [|a s IH]; [reflexivity|]. cbn. f_equal. exact IH. Qed.
Lemma name_ok_len n : (1 <=? blen (str n)) && (blen (str n) <=? 255) = name_ok n.
Proof.
  rewrite str_length. unfold name_ok. f_equal.
  - destruct (Z.leb_spec 1 (Z.of_nat (String.length n))), (Nat.leb_spec 1 (String.length n)); (reflexivity || lia).
  - destruct (Z.leb_spec (Z.of_nat (String.length n)) 255), (Nat.leb_spec (String.length n) 255); (reflexivity || lia).
Qed.
End Typed.

Section Laws.
Context {GO : Grp} {GL : GrpLaws GO}.

Lemma tagged_len (a : G) : blen (ser_tagged a) <= 255.
Proof. unfold ser_tagged. rewrite blen_cons. pose proof (ser_len a) as L. lia. Qed.
Lemma scalar_tagged_len s : blen (scalar_serialize_tagged s) <= 255.
Proof.
  unfold scalar_serialize_tagged. rewrite blen_cons. unfold blen. rewrite scalar_serialize_be, be_bytes_length. lia.
Qed.
Lemma raw_content l n : content (map raw l) (str n) = option_map vraw (holds l n).
Proof.
  induction l as [|[m c] l IH]; [reflexivity|]. cbn [map holds content raw fst snd].
  assert (Q : bytes_eqb (str m) (str n) = String.eqb m n).
  { destruct (String.eqb_spec m n) as [->|N]; [apply bytes_eqb_refl|]. destruct (bytes_eqb (str m) (str n)) eqn:E; [|reflexivity].
    apply bytes_eqb_eq, str_inj in E. contradiction. }
  rewrite Q. unfold call_wf. rewrite name_ok_len. destruct (String.eqb m n); [|exact IH]. cbn [andb]. destruct (name_ok m); [|exact IH]. cbn [andb].
  destruct c as [v|a|s|i|i]; cbn [meaning].
  - replace (blen v <=? 255) with ((List.length v <=? 255)%nat).
    2:{ unfold blen. destruct (Nat.leb_spec (List.length v) 255), (Z.leb_spec (Z.of_nat (List.length v)) 255); (reflexivity || lia). }
    destruct (Nat.leb _ _); [reflexivity|exact IH].
  - rewrite (proj2 (Z.leb_le _ _) (tagged_len a)). reflexivity.
  - rewrite (proj2 (Z.leb_le _ _) (scalar_tagged_len s)). reflexivity.
  - replace (blen (be_bytes 8 (u64 i))) with 8 by (unfold blen; rewrite be_bytes_length; reflexivity). reflexivity.
  - replace (blen (be_bytes 8 (u32 i))) with 8 by (unfold blen; rewrite be_bytes_length; reflexivity). reflexivity.
Qed.
Lemma raw_named l b d : content (map raw l) b = Some d -> exists n, b = str n.
Proof.
  induction l as [|[m c] l IH]; [discriminate|]. cbn [map content raw fst snd]. destruct (bytes_eqb (str m) b) eqn:E.
  - intros _. apply bytes_eqb_eq in E. exists m. symmetry. exact E.
  - exact IH.
Qed.
Lemma holds_range l n i : holds l n = Some (ValInteger i) -> 0 <= i < 2 ^ 64.
Proof.
  induction l as [|[m c] l IH]; [discriminate|]. cbn [holds]. destruct (_ && _); [|exact IH]. destruct c as [v|a|s|j|j]; cbn [meaning]; try discriminate.
  - destruct (Nat.leb _ _); [discriminate|exact IH].
  - intros H. injection H as <-. apply Z.mod_pos_bound. reflexivity.
  - intros H. injection H as <-. pose proof (Z.mod_pos_bound j (2 ^ 32) eq_refl). lia.
Qed.
Lemma vraw_inj v w : (forall i, v = ValInteger i -> 0 <= i < 2 ^ 64) -> (forall i, w = ValInteger i -> 0 <= i < 2 ^ 64) -> vraw v = vraw w -> v = w.
Proof.
  intros Bv Bw. destruct v as [v|a|s|i], w as [w|b|u|j]; cbn [vraw]; intros H;
    pose proof (f_equal fst H) as F; pose proof (f_equal snd H) as T; cbn [fst snd] in F, T; clear H;
    try (unfold ty_bytes, ty_point, ty_scalar, ty_integer in T; discriminate T).
  - congruence.
  - f_equal. apply ser_tagged_inj, F.
  - f_equal. apply scalar_serialize_inj. unfold scalar_serialize_tagged in F. apply (f_equal (@tl Z)) in F. cbn [tl] in F. exact F.
  - f_equal. apply (be_bytes_inj 8); [apply Bv; reflexivity|apply Bw; reflexivity|exact F].
Qed.
Lemma holds_content l l' : (forall n, holds l n = holds l' n) <-> (forall b, content (map raw l) b = content (map raw l') b).
Proof.
  split; intros H.
  - intros b. destruct (content (map raw l) b) as [d|] eqn:E.
    + destruct (raw_named _ _ _ E) as [n ->]. rewrite raw_content in *. rewrite <- H. congruence.
    + destruct (content (map raw l') b) as [d|] eqn:E'; [|reflexivity]. destruct (raw_named _ _ _ E') as [n ->]. rewrite raw_content in *. rewrite H in E. congruence.
  - intros n. specialize (H (str n)). rewrite !raw_content in H. destruct (holds l n) as [v|] eqn:E, (holds l' n) as [w|] eqn:E'; cbn [option_map] in H; try discriminate; [|reflexivity].
    f_equal. apply vraw_inj; [intros i ->; apply (holds_range _ _ _ E)|intros i ->; apply (holds_range _ _ _ E')|congruence].
Qed.
End Laws.

(** two sequences of typed additions hash the same string exactly if they leave
    the same values under the same names *)
Theorem C109_typed_inputs_bind : forall (GO : Grp) (GL : GrpLaws GO) dst dst' l l',
  ro_form (t_run (new_ro dst) l) = ro_form (t_run (new_ro dst') l') <-> (forall n, holds l n = holds l' n).
Proof. intros GO GL dst dst' l l'. rewrite !t_run_raw, ro_form_eq_iff. symmetry. apply holds_content. Qed.
Print Assumptions C109_typed_inputs_bind.

(** hence equal outputs mean equal values, equal separators and equal lengths,
    or a collision between the two strings at hand *)
Theorem C109_outputs_bind : forall (X : Oracles) (HX : oracles_ok X) (GO : Grp) (GL : GrpLaws GO) dst dst' l l' len len' o o',
  blen dst <= 255 -> blen dst' <= 255 -> 32 <= len -> 32 <= len' ->
  ro_output_bytes (t_run (new_ro dst) l) len = Ok o -> ro_output_bytes (t_run (new_ro dst') l') len' = Ok o' ->
  firstn 32 o = firstn 32 o' ->
  ((forall n, holds l n = holds l' n) /\ dst = dst' /\ len = len') \/
  exists m m', ro_form (t_run (new_ro dst) l) = Ok m /\ ro_form (t_run (new_ro dst') l') = Ok m' /\
    xmd_collision sha256 m dst len m' dst' len'.
Proof.
  intros X HX GO GL dst dst' l l' len len' o o' L L' N N'. rewrite !t_run_raw. intros E E' F.
  destruct (C65_oracle_strings_bind X HX _ _ _ _ _ _ _ _ L L' N N' E E' F) as [(A & B)|A]; [left; split; [apply holds_content, A|exact B]|right; exact A].
Qed.
Print Assumptions C109_outputs_bind.

(** single inputs: integers are told apart within their width, but the width
    itself and the bits above it are not bound *)
Theorem C109_integers : forall (GO : Grp) (GL : GrpLaws GO) dst n i j, name_ok n = true ->
  (ro_form (add_uint64 n i (new_ro dst)) = ro_form (add_uint64 n j (new_ro dst)) <-> i mod 2 ^ 64 = j mod 2 ^ 64) /\
  (ro_form (add_uint32 n i (new_ro dst)) = ro_form (add_uint32 n j (new_ro dst)) <-> i mod 2 ^ 32 = j mod 2 ^ 32) /\
  (ro_form (add_uint64 n i (new_ro dst)) = ro_form (add_uint32 n j (new_ro dst)) <-> i mod 2 ^ 64 = j mod 2 ^ 32).
Proof.
  intros GO GL dst n i j Hn.
  assert (K : forall c c' a b, meaning c = Some (ValInteger a) -> meaning c' = Some (ValInteger b) ->
    (ro_form (t_run (new_ro dst) [(n, c)]) = ro_form (t_run (new_ro dst) [(n, c')]) <-> a = b)).
  { intros c c' a b Hc Hc'. rewrite C109_typed_inputs_bind by exact GL. cbn [holds]. rewrite Hc, Hc', Hn. split.
    - intros H. specialize (H n). rewrite String.eqb_refl in H. cbn [andb] in H. congruence.
    - intros -> m. reflexivity. }
  split; [apply (K (CallUint64 i) (CallUint64 j)); reflexivity|]. split; [apply (K (CallUint32 i) (CallUint32 j)); reflexivity|].
  apply (K (CallUint64 i) (CallUint32 j)); reflexivity.
Qed.
Print Assumptions C109_integers.

(** so an oracle does not separate the two integer methods *)
Theorem C109_widths_are_separated_refuted : forall (GO : Grp) (GL : GrpLaws GO) dst n i, name_ok n = true -> 0 <= i < 2 ^ 32 ->
  ro_form (add_uint64 n i (new_ro dst)) = ro_form (add_uint32 n i (new_ro dst)).
Proof.
  intros GO GL dst n i Hn Hi. apply (C109_integers GO GL dst n i i Hn). rewrite !Z.mod_small; lia.
Qed.
Print Assumptions C109_widths_are_separated_refuted.

Example C109_ex : forall (GO : Grp) (GL : GrpLaws GO) (a : G) dst,
  holds [("p", CallPoint a); ("i", CallUint32 7); ("i", CallUint64 8)]%string "i"%string = Some (ValInteger 7) /\
  ro_form (t_run (new_ro dst) [("p", CallPoint a); ("i", CallUint32 7); ("i", CallUint64 8)]%string) =
  ro_form (t_run (new_ro dst) [("i", CallUint64 7); ("p", CallPoint a)]%string) /\
  ro_form (t_run (new_ro dst) [("p", CallPoint a)]%string) <> ro_form (t_run (new_ro dst) [("p", CallScalar fone)]%string).
Proof.
  intros GO GL a dst. split; [reflexivity|]. split.
  - apply C109_typed_inputs_bind; [exact GL|]. intros n. cbn [holds]. destruct (String.eqb_spec "p" n) as [<-|Np].
    + reflexivity.
    + cbn [andb]. destruct (String.eqb_spec "i" n) as [<-|Ni]; reflexivity.
  - intros H. pose proof (proj1 (C109_typed_inputs_bind GO GL dst dst _ _) H "p"%string) as Q. discriminate Q.
Qed.
