(** C70: what FromStr accepts. *)
From Coq Require Import ZArith Lia Bool String List.
From Verif Require Import Base BaseFacts Zmod Fields ModelSecp ModelEncode.
Import ListNotations.
Open Scope Z_scope.

(** a character, given by its ASCII code, and the value it has as a
    hexadecimal digit *)
Definition hex_digit (c v : Z) : Prop :=
  (48 <= c <= 57 /\ v = c - 48) \/ (97 <= c <= 102 /\ v = c - 87) \/ (65 <= c <= 70 /\ v = c - 55).
(** a text that spells bytes, two digits each *)
Inductive spells : bytes -> bytes -> Prop :=
| spells_nil : spells [] []
| spells_cons a b s x y r : hex_digit a x -> hex_digit b y -> spells s r -> spells (a :: b :: s) (16 * x + y :: r).
(** the length of an encoding that starts with this tag *)
Definition tag_length (t n : Z) : Prop :=
  ((t = 2 \/ t = 3 \/ t = 5) /\ n = 33) \/ (t = 4 /\ n = 65) \/ (t <> 2 /\ t <> 3 /\ t <> 4 /\ t <> 5 /\ n = 1).

Lemma hex_val_digit c v : hex_val c = Some v <-> hex_digit c v.
Proof.
  unfold hex_val, hex_digit.
  destruct (Z.leb_spec 48 c), (Z.leb_spec c 57); cbn [andb];
    [split; [intros H1; injection H1 as <-; left; lia|intros [[_ ->]|[H1|H1]]; [reflexivity|lia|lia]]|..];
    (destruct (Z.leb_spec 97 c), (Z.leb_spec c 102); cbn [andb];
      [split; [intros H3; injection H3 as <-; right; left; lia|intros [H3|[[_ ->]|H3]]; [lia|reflexivity|lia]]|..]);
    (destruct (Z.leb_spec 65 c), (Z.leb_spec c 70); cbn [andb];
      [split; [intros H5; injection H5 as <-; right; right; lia|intros [H5|[H5|[_ ->]]]; [lia|lia|reflexivity]]|..]);
    (split; [discriminate|intros [H5|[H5|H5]]; lia]).
Qed.
Lemma hex_decode_cases : forall n s, (List.length s <= n)%nat ->
  (exists b, hex_decode s = Ok b /\ spells s b) \/ (hex_decode s = Err /\ forall b, ~ spells s b).
Proof.
  induction n as [|n IH]; intros s L; (destruct s as [|a [|b s]]; [left; exists []; split; [reflexivity|constructor]| |]); cbn [List.length] in L; try lia.
  - right. split; [reflexivity|]. intros r H. inversion H.
  - cbn [hex_decode]. destruct (hex_val a) as [x|] eqn:Ea.
    2:{ right. split; [reflexivity|]. intros r H. inversion H; subst. apply hex_val_digit in H3. congruence. }
    destruct (hex_val b) as [y|] eqn:Eb.
    2:{ right. split; [reflexivity|]. intros r H. inversion H; subst. apply hex_val_digit in H5. congruence. }
    destruct (IH s ltac:(lia)) as [(r & -> & H)|[-> H]]; cbn [bind].
    + left. exists (16 * x + y :: r). split; [reflexivity|]. apply hex_val_digit in Ea, Eb. now constructor.
    + right. split; [reflexivity|]. intros r H1. inversion H1; subst. eapply H; eassumption.
Qed.
Lemma spells_fun : forall s b, spells s b -> forall c, spells s c -> b = c.
Proof.
  intros s b H. induction H as [|a b s x y r Ha Hb H IH]; intros c Hc; inversion Hc; subst; [reflexivity|].
  apply hex_val_digit in Ha, Hb. match goal with H1 : hex_digit a _, H2 : hex_digit b _ |- _ => apply hex_val_digit in H1, H2 end.
  f_equal; [congruence|apply IH; assumption].
Qed.
Lemma message_len_tag t n : n = message_len t <-> tag_length t n.
Proof.
  unfold message_len, tag_length.
  destruct (Z.eqb_spec t 2), (Z.eqb_spec t 3), (Z.eqb_spec t 4), (Z.eqb_spec t 5); cbn [orb]; intuition lia.
Qed.

(** C70: FromStr takes exactly the texts, digits in either case, that spell a
    byte string as long as its tag says; it panics exactly on the empty text and
    reports every other one *)
Theorem C70_from_text_exact : forall s,
  (forall e, encode_from_str s = Ok e <-> spells s e /\ exists t r, e = t :: r /\ tag_length t (blen e)) /\
  (encode_from_str s = Panic <-> s = []) /\
  (encode_from_str s = Err <-> s <> [] /\ forall e t r, spells s e -> e = t :: r -> ~ tag_length t (blen e)) /\
  encode_from_str s <> Diverge.
Proof.
  intros s. unfold encode_from_str. destruct (hex_decode_cases _ s (le_n _)) as [(b & -> & H)|[-> H]]; cbn [bind].
  - pose proof (spells_fun _ _ H) as U. destruct b as [|t r]; cbn [encode_from_bytes].
    + assert (s = []) as -> by (inversion H; reflexivity).
      split; [|split; [|split; [|discriminate]]].
      * intros e. split; [discriminate|]. intros (He & t & r & -> & _). apply U in He. discriminate He.
      * split; reflexivity.
      * split; [discriminate|]. intros [N _]. contradiction.
    + assert (s <> []) as N by (intros ->; inversion H).
      destruct (Z.eqb_spec (blen (t :: r)) (message_len t)) as [E|E].
      * apply message_len_tag in E. split; [|split; [|split; [|discriminate]]].
        -- intros e. split; [intros X; inversion X; subst; split; [exact H|eauto]|]. intros (He & _). apply U in He. now subst.
        -- split; [discriminate|contradiction].
        -- split; [discriminate|]. intros [_ X]. destruct (X _ t r H eq_refl E).
      * rewrite message_len_tag in E. split; [|split; [|split; [|discriminate]]].
        -- intros e. split; [discriminate|]. intros (He & t' & r' & Ee & L). apply U in He. rewrite <- He in Ee, L. inversion Ee; subst t' r'. contradiction.
        -- split; [discriminate|contradiction].
        -- split; [|reflexivity]. intros _. split; [exact N|]. intros e t' r' He Ee. apply U in He. rewrite <- He in Ee |- *. inversion Ee; subst t' r'. exact E.
  - assert (s <> []) as N by (intros ->; apply (H []); constructor).
    split; [|split; [|split; [|discriminate]]].
    + intros e. split; [discriminate|]. intros (He & _). destruct (H _ He).
    + split; [discriminate|contradiction].
    + split; [|reflexivity]. intros _. split; [exact N|]. intros e t r He. destruct (H _ He).
Qed.
Print Assumptions C70_from_text_exact.
(** the identity, digits of both cases, an odd text, a text too short for its
    tag, and the empty text *)
Example C70_ex_text : encode_from_str (str "00") = Ok [0] /\ encode_from_str (str "aA") = Ok [170] /\ encode_from_str (str "0") = Err /\
  encode_from_str (str "02") = Err /\ encode_from_str [] = Panic.
Proof. repeat split; reflexivity. Qed.
