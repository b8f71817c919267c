(** A small instance of the external primitives and of the group class, used
    only to show that hypotheses of theorems are satisfiable: the group is the
    additive group of the scalar field. *)
From Coq Require Import ZArith Lia Bool String List Ring Field.
From Verif Require Import Base BaseFacts Zmod Fields ModelScalar ProofScalar ModelXmd ModelRo ModelGroup SpecPoly ProofPoly.
Import ListNotations.
Open Scope Z_scope.

(** test value, not code of /repo *)
#[export] Instance toyX : Oracles := {
  sha256 m := let s := fold_left Z.add m (blen m) in map (fun i => (s + Z.of_nat (i * i + i)) mod 256) (seq 0 32);
  hmac512 k m := let s := fold_left Z.add (k ++ m) 5 in map (fun i => (s + Z.of_nat (3 * i)) mod 128) (seq 0 64);
  keystream k i := (nth (i mod 32) k 0 + Z.of_nat i) mod 128;
  rand_fuel := 4
}.
Lemma toyX_ok : oracles_ok toyX.
Proof.
  assert (M : forall (f : nat -> Z) m l, 0 < m <= 256 -> bytes_ok (map (fun i => f i mod m) l)).
  { intros f m l H. apply Forall_forall. intros x Hx. apply in_map_iff in Hx. destruct Hx as (i & <- & _).
    unfold byte_ok. pose proof (Z.mod_pos_bound (f i) m). lia. }
  split; intros; cbn [sha256 hmac512 keystream toyX].
  - rewrite map_length. reflexivity.
  - apply (M (fun i => fold_left Z.add m (blen m) + Z.of_nat (i * i + i))). lia.
  - rewrite map_length. reflexivity.
  - apply (M (fun i => fold_left Z.add (k ++ m) 5 + Z.of_nat (3 * i))). lia.
  - unfold byte_ok. pose proof (Z.mod_pos_bound (nth (i mod 32) k 0 + Z.of_nat i) 128). lia.
Qed.

(** test value, not code of /repo *)
Definition toy_ser (a : Fq) : bytes := 2 :: be_bytes 32 (fv a).
#[export] Instance toyG : Grp := {
  G := Fq;
  gzero := fzero;
  gadd := fadd;
  gneg := fneg;
  smul := fmul;
  geqb := feqb;
  genG := of_Z q 3;
  genH := of_Z q 1000003;
  ser := toy_ser;
  deser b := match b with [] => Err | _ :: b => Ok (of_Z q (be_val b)) end;
  affx a := of_Z p (fv (if is_high a then fneg a else a));
  h2p i d := Ok (of_Z q (be_val i + be_val d))
}.
#[export] Instance toyL : GrpLaws toyG.
Proof.
  assert (R : forall a b : Fq, fv a = fv b -> a = b) by (intros; now apply fe_eq).
  assert (V : forall a : Fq, be_val (be_bytes 32 (fv a)) = fv a).
  { intros a. rewrite be_val_be_bytes. apply Z.mod_small. pose proof (Fq_range a). change (256 ^ Z.of_nat 32) with (2^256).
    unfold q in *. lia. }
  constructor; cbn [G gzero gadd gneg smul geqb genG genH ser deser affx h2p toyG]; intros; try ring.
  - apply feqb_eq.
  - intros E. apply (f_equal fv) in E. vm_compute in E. discriminate.
  - intros E. apply (f_equal fv) in E. vm_compute in E. discriminate.
  - unfold toy_ser, blen. cbn [List.length]. rewrite be_bytes_length. reflexivity.
  - unfold toy_ser. constructor; [unfold byte_ok; lia|apply be_bytes_ok].
  - unfold toy_ser in H. apply (f_equal (@tl Z)) in H. cbn [tl] in H. apply (f_equal be_val) in H. rewrite !V in H. apply R, H.
  - unfold toy_ser. rewrite V, of_Z_fv. reflexivity.
  - assert (E : (if is_high a then fneg a else a) = (if is_high b then fneg b else b)).
    { apply R. apply (f_equal fv) in H. rewrite !fv_of_Z in H.
      pose proof (Fq_range (if is_high a then fneg a else a)). pose proof (Fq_range (if is_high b then fneg b else b)).
      rewrite !Z.mod_small in H by (unfold p, q in *; lia). exact H. }
    assert (I : forall x : Fq, fneg (fneg x) = x) by (intros; ring).
    destruct (is_high a), (is_high b); [left; rewrite <- (I a), E, I; reflexivity|right; rewrite <- (I a), E; reflexivity|right; exact E|left; exact E].
  - assert (D : {a = fzero} + {a <> fzero}) by apply fe_dec.
    destruct D as [-> |N]; [replace (fneg fzero) with (@fzero q) by ring; reflexivity|]. rewrite (is_high_neg a N).
    assert (I : fneg (fneg a) = a) by ring. destruct (is_high a); cbn [negb]; rewrite ?I; reflexivity.
  - rewrite is_high_zero. apply fe_eq. reflexivity.
  - eauto.
Qed.
