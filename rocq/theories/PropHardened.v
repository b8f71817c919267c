(** Property C105: every derivation is public, also under hardened indices, and
    one derived secret key gives away all the others. *)
From Coq Require Import ZArith Lia Bool String List Ring.
From Verif Require Import Base BaseFacts Zmod Fields ModelScalar ModelXmd ModelRo ProofPoly ModelGroup GroupFacts
  ProofTranscript ModelKey SpecKey ProofKey PropKey Toy ToyShort.
Import ListNotations.
Open Scope Z_scope.

Section Spec.
Context {X : Oracles} {GO : Grp}.
(** Spec: CKDpub as in BIP32, which fails for the hardened indices and, up to
    trying the next index, for invalid children *)
Definition bip32_ckdpub (k : G) (c : bytes) (n : Z) : option (G * bytes) :=
  if 2 ^ 31 <=? n then None
  else if (spec_L k c (ser32 n) <? q) && negb (geqb (spec_child_key k c (ser32 n)) gzero)
       then Some (spec_child_key k c (ser32 n), spec_R k c (ser32 n)) else None.
End Spec.

(** on the indices for which BIP32 derives a child the code derives the same *)
Theorem C105_as_bip32 : forall (X : Oracles) (HX : oracles_ok X) (GO : Grp) (GL : GrpLaws GO) k n k' c',
  0 <= n < 2 ^ 32 -> bip32_ckdpub k (repeat 0 32) n = Some (k', c') -> rand_fuel <> 0%nat ->
  derive_public_key (ser k) (new_bip32 [n]) = Ok (ser k', c').
Proof.
  intros X HX GO GL k n k' c' R E F. unfold bip32_ckdpub in E. destruct (2 ^ 31 <=? n); [discriminate|].
  destruct ((_ <? q) && negb _) eqn:V; [|discriminate]. apply andb_prop in V. destruct V as [V1 V2]. apply Z.ltb_lt in V1.
  injection E as <- <-.
  assert (Val : spec_valid k (repeat 0 32) (ser32 n)).
  { split; [exact V1|]. intros Z0. rewrite Z0 in V2. rewrite (proj2 (geqb_iff gzero gzero) eq_refl) in V2. discriminate. }
  assert (B : new_bip32 [n] = [ser32 n]).
  { destruct (C49_bip32_indices [n] []) as (H & L & _); [intros m [<-|[]]; exact R|]. specialize (H 0%nat ltac:(cbn; lia)). cbn [nth] in H.
    destruct (new_bip32 [n]) as [|a [|b l]]; try discriminate L. cbn [nth] in H. rewrite H. reflexivity. }
  rewrite B. unfold derive_public_key. rewrite deser_ser, bind_Ok. unfold derive_tweak. cbn [tweak_loop].
  destruct rand_fuel as [|fuel]; [congruence|]. rewrite (ckdpub_valid HX) by exact Val. rewrite !bind_Ok. cbn [fst snd]. f_equal. f_equal. f_equal.
  unfold spec_child_key, mul_by_g. set (o := of_Z q _). assert (W : fadd fzero o = o) by ring. rewrite W. apply gadd_comm.
Qed.
Print Assumptions C105_as_bip32.

(** but the hardened indices, which BIP32 refuses, are not treated differently:
    the outcome is the one for non-hardened indices, from the public key alone *)
Theorem C105_hardened_indices_refused_refuted :
  ~ (forall (X : Oracles) (HX : oracles_ok X) (GO : Grp) (GL : GrpLaws GO) k n r,
       2 ^ 31 <= n < 2 ^ 32 -> derive_public_key (ser k) (new_bip32 [n]) = r -> is_ok r = false).
Proof.
  intros H. specialize (H shortX shortX_ok toyG toyL (@smul toyG (of_Z q 5) genG) (2 ^ 31 + 44) _ ltac:(lia) eq_refl).
  vm_compute in H. discriminate.
Qed.
Print Assumptions C105_hardened_indices_refused_refuted.

(** Whatever the path (hardened or not), the tweak is a function of the public
    key: a secret key of a derived key gives the master secret and with it the
    secret keys of all other paths. *)
Theorem C105_derived_secret_reveals_all :
  forall (X : Oracles) (HX : oracles_ok X) (GO : Grp) (GL : GrpLaws GO) pa pb pk d ch d' ch' ta tb ca cb y,
  derive_public_key (ser pk) pa = Ok (d, ch) -> derive_public_key (ser pk) pb = Ok (d', ch') ->
  derive_tweak pa pk = Ok (ta, ca) -> derive_tweak pb pk = Ok (tb, cb) ->
  deser d = Ok (smul y genG) ->
  smul (fsub y ta) genG = pk /\ deser d' = Ok (smul (fadd (fsub y ta) tb) genG).
Proof.
  intros X HX GO GL pa pb pk d ch d' ch' ta tb ca cb y D D' Ta Tb Y.
  destruct (C47_derived_key_is_chain_of_children X HX GO GL pa pk ta ca Ta) as (k & o & _ & _ & K & E). rewrite E in D.
  destruct (C47_derived_key_is_chain_of_children X HX GO GL pb pk tb cb Tb) as (k' & o' & _ & _ & K' & E'). rewrite E' in D'.
  assert (d = ser k) by congruence. assert (d' = ser k') by congruence. subst d d'. rewrite deser_ser in Y.
  assert (Q : k = smul y genG) by congruence. clear Y E E' D D'.
  assert (P : smul (fsub y ta) genG = pk).
  { assert (W : smul y genG = gadd pk (smul ta genG)) by (rewrite <- Q; exact K). replace (smul (fsub y ta) genG) with (gsub (smul y genG) (smul ta genG)) by (unfold gsub; gring). rewrite W. unfold gsub. gring. }
  split; [exact P|]. rewrite deser_ser. f_equal. rewrite K', <- P. unfold mul_by_g. gring.
Qed.
Print Assumptions C105_derived_secret_reveals_all.
#[local] Existing Instance shortX.
#[local] Existing Instance toyG.
#[local] Existing Instance toyL.
(** the master key 5 with the hardened path 44' and the path 1, 2 *)
Example C105_ex : exists d ch d' ch' ta tb ca cb y,
  derive_public_key (ser (smul (of_Z q 5) genG)) (new_bip32 [2147483692]) = Ok (d, ch) /\
  derive_public_key (ser (smul (of_Z q 5) genG)) (new_bip32 [1; 2]) = Ok (d', ch') /\
  derive_tweak (new_bip32 [2147483692]) (smul (of_Z q 5) genG) = Ok (ta, ca) /\
  derive_tweak (new_bip32 [1; 2]) (smul (of_Z q 5) genG) = Ok (tb, cb) /\
  deser d = Ok (smul y genG).
Proof.
  assert (O : forall pa, is_ok (derive_tweak pa (smul (of_Z q 5) genG)) = true -> exists t c, derive_tweak pa (smul (of_Z q 5) genG) = Ok (t, c) /\
    derive_public_key (ser (smul (of_Z q 5) genG)) pa = Ok (ser (smul (fadd t (of_Z q 5)) genG), c)).
  { intros pa H. unfold derive_public_key. rewrite deser_ser, bind_Ok. destruct (derive_tweak pa _) as [[t c]| | |]; try discriminate H. exists t, c. split; [reflexivity|].
    rewrite bind_Ok. cbn [fst snd]. f_equal. f_equal. f_equal. unfold mul_by_g. rewrite smul_add. reflexivity. }
  destruct (O (new_bip32 [2147483692])) as (ta & ca & Ta & D); [vm_compute; reflexivity|].
  destruct (O (new_bip32 [1; 2])) as (tb & cb & Tb & D'); [vm_compute; reflexivity|].
  eexists _, _, _, _, ta, tb, ca, cb, (fadd ta (of_Z q 5)). split; [exact D|]. split; [exact D'|]. split; [exact Ta|]. split; [exact Tb|]. apply deser_ser.
Qed.
Example C105_ex_bip32 : rand_fuel <> 0%nat /\ exists r, bip32_ckdpub (smul (of_Z q 5) genG) (repeat 0 32) 1 = Some r.
Proof.
  split; [discriminate|].
  assert (O : match bip32_ckdpub (smul (of_Z q 5) genG) (repeat 0 32) 1 with Some _ => true | None => false end = true) by (vm_compute; reflexivity).
  destruct (bip32_ckdpub _ _ _) as [r|]; [eauto|discriminate].
Qed.
