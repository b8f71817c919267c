(** C109: on the curve, the bytes a random oracle holds for a point. *)
From Coq Require Import ZArith Lia Bool String List.
From Verif Require Import Base BaseFacts Zmod Fields ModelScalar ProofScalar ModelXmd ModelRo ModelPoly ModelGroup ModelSecp SpecSecp ProofFp ProofCurve ProofAb ProofOrder ProofCodec ModelH2C ProofSecp.
From Verif Require Toy.
Import ListNotations.
Open Scope Z_scope.

Lemma stored n input ty dst : 0 < blen n <= 255 -> blen input <= 255 ->
  ro_add_ign (new_ro dst) n input ty = mkro dst [(n, ty :: be_bytes 4 (u32 (blen input)) ++ input)].
Proof.
  intros L Li. unfold ro_add_ign, ro_add_input, new_ro. cbn [lookup ro_inputs ro_dst].
  destruct (Z.eqb_spec (blen n) 0); [lia|]. destruct (Z.ltb_spec 255 (blen n)); [lia|]. cbn [orb].
  destruct (Z.ltb_spec 255 (blen input)); [lia|]. reflexivity.
Qed.
(** C109: what the other typed calls store under a free name of proper length:
    the type, the length in four bytes, then the bytes; a scalar with the curve's
    tag and big endian, an integer big endian in eight bytes, reduced to its
    width *)
Theorem C109_stored_bytes : forall name dst, 0 < blen (str name) <= 255 ->
  (forall v, blen v <= 255 -> add_bytes name v (new_ro dst) = mkro dst [(str name, [1; 0; 0; 0; blen v] ++ v)]) /\
  (forall s, add_scalar name s (new_ro dst) = mkro dst [(str name, [4; 0; 0; 0; 33; 1] ++ be_bytes 32 (fv s))]) /\
  (forall i, add_uint64 name i (new_ro dst) = mkro dst [(str name, [2; 0; 0; 0; 8] ++ be_bytes 8 (i mod 2 ^ 64))]) /\
  (forall i, add_uint32 name i (new_ro dst) = mkro dst [(str name, [2; 0; 0; 0; 8] ++ be_bytes 8 (i mod 2 ^ 32))]).
Proof.
  intros name dst L.
  assert (B : forall n, 0 <= n <= 255 -> be_bytes 4 (u32 n) = [0; 0; 0; n]).
  { intros n Hn. unfold u32. rewrite Z.mod_small by lia. unfold be_bytes. cbn [le_bytes rev app].
    rewrite (Z.div_small n 256), (Z.mod_small n 256) by lia. reflexivity. }
  split; [|split; [|split]].
  - intros v Lv. unfold add_bytes. rewrite stored by assumption. rewrite B by (pose proof (blen_nonneg v); lia). reflexivity.
  - intros s. assert (E : scalar_serialize_tagged s = 1 :: be_bytes 32 (fv s)) by (unfold scalar_serialize_tagged; now rewrite scalar_serialize_be).
    assert (Ls : blen (scalar_serialize_tagged s) = 33) by (rewrite E, blen_cons; unfold blen; now rewrite be_bytes_length).
    unfold add_scalar. rewrite stored by (assumption || lia). rewrite Ls, B, E by lia. reflexivity.
  - intros i. unfold add_uint64. assert (Lb : blen (be_bytes 8 (u64 i)) = 8) by (unfold blen; now rewrite be_bytes_length).
    rewrite stored by (assumption || lia). rewrite Lb, B by lia. reflexivity.
  - intros i. unfold add_uint32. assert (Lb : blen (be_bytes 8 (u32 i)) = 8) by (unfold blen; now rewrite be_bytes_length).
    rewrite stored by (assumption || lia). rewrite Lb, B by lia. reflexivity.
Qed.
Print Assumptions C109_stored_bytes.

(** C109: AddPoint on secp256k1 stores under the name, if it is free and of
    proper length, the type 3, the length 34, the curve's tag and the SEC1 bytes
    of the point, which are what SerializeTagged returns *)
Theorem C109_points_on_the_curve : forall (X : Oracles) (HX : oracles_ok X) name (a : G (Grp := secpG)) dst,
  0 < blen (str name) <= 255 ->
  exists b, point_serialize_tagged (cp a) = Ok b /\ b = 1 :: sec1 (cp a) /\
  ro_inputs (add_point name a (new_ro dst)) = [(str name, [3; 0; 0; 0; 34] ++ b)] /\ ro_dst (add_point name a (new_ro dst)) = dst.
Proof.
  intros X HX name a dst L. exists (ser_tagged a).
  assert (E : ser_tagged a = 1 :: sec1 (cp a)) by reflexivity.
  assert (Ls : blen (sec1 (cp a)) = 33) by (unfold blen; rewrite sec1_length; reflexivity).
  assert (T : blen (ser_tagged a) = 34) by (rewrite E, blen_cons, Ls; reflexivity).
  split; [|split; [exact E|]].
  - rewrite E. apply serialize_tagged.
  - unfold add_point, ro_add_ign, ro_add_input, new_ro. cbn [lookup ro_inputs ro_dst]. rewrite T.
    destruct (Z.eqb_spec (blen (str name)) 0); [lia|]. destruct (Z.ltb_spec 255 (blen (str name))); [lia|]. cbn [orb].
    change (255 <? 34) with false. cbv iota. cbn [fst ro_inputs ro_dst insert]. split; reflexivity.
Qed.
Print Assumptions C109_points_on_the_curve.
Example C109_ex_name : 0 < blen (str "instance_g") <= 255.
Proof. vm_compute. split; [reflexivity|discriminate]. Qed.
