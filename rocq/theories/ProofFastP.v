(** Fast arithmetic modulo p = 2^256 - 4294968273 for checks by computation. *)
From Coq Require Import ZArith Lia Bool.
From Verif Require Import Zmod Fields.
Open Scope Z_scope.

Definition red1 (z : Z) : Z := Z.shiftr z 256 * 4294968273 + Z.land z (Z.ones 256).
Definition red (z : Z) : Z := red1 (red1 z).
Lemma red1_spec z : of_Z p (red1 z) = of_Z p z.
Proof.
  unfold red1. rewrite Z.shiftr_div_pow2, Z.land_ones by lia. apply of_Z_eq.
  pose proof (Z.div_mod z (2 ^ 256) ltac:(lia)) as D.
  replace z with (z / 2 ^ 256 * 4294968273 + z mod 2 ^ 256 + z / 2 ^ 256 * p) at 3 by (unfold p; lia).
  rewrite Z.mod_add by (unfold p; lia). reflexivity.
Qed.
Lemma red_spec z : of_Z p (red z) = of_Z p z.
Proof. unfold red. now rewrite !red1_spec. Qed.

Fixpoint fast_pow (a : Z) (n : positive) : Z :=
  match n with
  | xH => a
  | xO n => let r := fast_pow a n in red (r * r)
  | xI n => let r := fast_pow a n in red (a * red (r * r))
  end.
Lemma fast_pow_spec a n : of_Z p (fast_pow a n) = fpow (of_Z p a) (Zpos n).
Proof.
  induction n as [n IH|n IH|]; cbn [fast_pow]; cbv zeta.
  - rewrite red_spec, of_Z_mul, red_spec, of_Z_mul, IH.
    change (Zpos (xI n)) with (Z.succ (2 * Zpos n)). rewrite fpow_succ by lia.
    replace (2 * Zpos n) with (Zpos n + Zpos n) by lia. rewrite fpow_add by lia. reflexivity.
  - rewrite red_spec, of_Z_mul, IH. replace (Zpos (xO n)) with (Zpos n + Zpos n) by lia. rewrite fpow_add by lia. reflexivity.
  - rewrite fpow_1. reflexivity.
Qed.
Definition is_zero_p (z : Z) : bool := let r := red z in (r =? 0) || (r =? p).
Lemma is_zero_p_sound z : is_zero_p z = true -> of_Z p z = fzero.
Proof.
  unfold is_zero_p. intros H. apply orb_true_iff in H. rewrite <- (red_spec z).
  destruct H as [H|H]; apply Z.eqb_eq in H; rewrite H; [reflexivity|]. apply fe_eq. vm_compute. reflexivity.
Qed.

Definition third : positive := Eval vm_compute in Z.to_pos ((p - 1) / 3).
Lemma neg7_check : (fast_pow (-7) third - 1) mod p =? 0 = false.
Proof. vm_compute. reflexivity. Qed.
(** -7 is not a cube *)
Lemma neg7_pow : fpow (of_Z p (-7)) ((p - 1) / 3) <> fone.
Proof.
  intros H. replace ((p - 1) / 3) with (Zpos third) in H by (vm_compute; reflexivity). rewrite <- fast_pow_spec in H.
  pose proof neg7_check as C. apply Z.eqb_neq in C. apply C.
  unfold fone in H. apply of_Z_eq_iff in H. rewrite Zminus_mod, H, <- Zminus_mod. reflexivity.
Qed.
