(** Property C12: hash to curve. *)
From Coq Require Import ZArith Lia Bool String List.
From Verif Require Import Base BaseFacts Zmod Fields ModelXmd SpecXmd ModelSecp SpecSecp ProofCurve SpecH2C ModelH2C ProofH2C ProofSswu Toy.
Import ListNotations.
Open Scope Z_scope.

(** for every field element the map succeeds with a point of the curve, the
    one RFC 9380 prescribes *)
Theorem C12_map_to_curve : forall u, exists x y,
  map_to_curve u = Ok (Some (Some (x, y))) /\ on_curve (Some (x, y)) /\ rfc_map u x y.
Proof. intros u. destruct (map_spec u) as (x & y & E & R & C). exists x, y. split; [exact E|]. split; [apply curve_iff; exact C|exact R]. Qed.
(** that point is unique *)
Theorem C12_map_unique : forall u x y x' y', rfc_map u x y -> rfc_map u x' y' -> x = x' /\ y = y'.
Proof.
  intros u x y x' y' (a & b & (A & B & C) & _ & _ & -> & ->) (a' & b' & (A' & B' & C') & _ & _ & -> & ->).
  assert (a = a') as -> by (destruct A as [[? ->]|[? ->]], A' as [[? ->]|[? ->]]; try reflexivity; contradiction).
  assert (b = b') as ->; [|split; reflexivity].
  rewrite <- B' in B. destruct (ProofFp.square_eq _ _ B) as [E|E]; [exact E|]. exfalso.
  pose proof (ProofFp.neg_parity b' (iso_g_y _ _ B')) as P. unfold sgn0 in *. rewrite E in C. lia.
Qed.
(** for every message and domain separator HashToPoint succeeds with a point
    of the curve, the sum of the two prescribed points *)
Theorem C12_hash_to_curve : forall (X : Oracles) (HX : oracles_ok X) msg dst,
  exists uniform x0 y0 x1 y1 r,
    rfc_expand sha256 msg dst 96 = Some uniform /\
    rfc_map (rfc_field uniform 0) x0 y0 /\ rfc_map (rfc_field uniform 1) x1 y1 /\
    hash_to_curve_ro msg dst = Ok r /\ r = pt_add (Some (x0, y0)) (Some (x1, y1)) /\ on_curve r.
Proof.
  intros X HX msg dst. destruct (h2c_spec HX msg dst) as (o & x0 & y0 & x1 & y1 & A & R0 & R1 & E0 & E1 & H).
  exists o, x0, y0, x1, y1. eexists. repeat (split; [eassumption|]). split; [reflexivity|].
  apply curve_iff. apply pt_add_curve; [exact E0|exact E1].
Qed.
Print Assumptions C12_map_to_curve.
Print Assumptions C12_map_unique.
Print Assumptions C12_hash_to_curve.
Example C12_ex : oracles_ok toyX. Proof. exact toyX_ok. Qed.
(** the exceptional inputs exist: u = 0 and u^2 = 1/11 *)
Example C12_ex_exceptional : exists u : Fp, u <> fzero /\ fmul sswu_Z (fmul u u) = fneg fone.
Proof.
  exists (of_Z p 0x331716177ec001cf0b2a4b9bf5c63274440235ba3dc0af713237ec866179d785). split; [intros E; apply (f_equal (@fv p)) in E; vm_compute in E; discriminate E|apply fe_eq; vm_compute; reflexivity].
Qed.
