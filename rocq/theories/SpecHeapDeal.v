(** Memory specification, continued: reading proofs, ciphertexts, dealings,
    operations and complaints out of a memory, and the cells they consist of. *)
From Coq Require Import ZArith List Arith.
From Verif Require Import Base Zmod Fields ModelScalar ModelXmd ModelRo ModelPoly ModelGroup ModelCommit ModelZk ModelMega
  ModelDealing ModelComplaint ModelSign ModelHeap ModelHeapSign ModelHeapDeal SpecHeap.
Import ListNotations.

Section SpecHeapDeal.
Context {X : Oracles} {GO : Grp}.
(** entries of a map: the same key, related values *)
Definition entry_at {A B} (P : A -> B -> Prop) (a : Z * A) (b : Z * B) : Prop := fst a = fst b /\ P (snd a) (snd b).
Definition pair_at (h : heap) (p : ptr * ptr) (v : Fq * Fq) : Prop := scalar_at h (fst p) (fst v) /\ scalar_at h (snd p) (snd v).
Definition dlog_at (h : heap) (p : hdlog) (v : dlog_proof) : Prop :=
  scalar_at h (hdl_challenge p) (dl_challenge v) /\ scalar_at h (hdl_response p) (dl_response v).
Definition eqo_at (h : heap) (p : heqo) (v : eqo_proof) : Prop :=
  scalar_at h (heo_challenge p) (eo_challenge v) /\ scalar_at h (heo_response p) (eo_response v).
Definition prod_at (h : heap) (p : hprod) (v : prod_proof) : Prop :=
  scalar_at h (hpr_challenge p) (pr_challenge v) /\ scalar_at h (hpr_response1 p) (pr_response1 v) /\
  scalar_at h (hpr_response2 p) (pr_response2 v).
Definition ciphertext_at (h : heap) (c : hciphertext) (v : ciphertext) : Prop :=
  match c, v with
  | HMSingle e p pf ct, MSingle ev pv pfv cv => point_at h e ev /\ point_at h p pv /\ dlog_at h pf pfv /\ scalars_at h ct cv
  | HMPair e p pf ct, MPair ev pv pfv cv => point_at h e ev /\ point_at h p pv /\ dlog_at h pf pfv /\ Forall2 (pair_at h) ct cv
  | HMNil, MNil => True
  | _, _ => False
  end.
Definition zk_at (h : heap) (p : hzkproof) (v : zkproof) : Prop :=
  match p, v with
  | HPNone, PNone => True
  | HPMasked p, PMasked v => eqo_at h p v
  | HPProduct p, PProduct v => prod_at h p v
  | _, _ => False
  end.
Definition dealing_at (h : heap) (d : hdealing) (v : dealing) : Prop :=
  ciphertext_at h (hd_ct d) (d_ct v) /\ commitment_at h (hd_cm d) (d_cm v) /\ zk_at h (hd_proof d) (d_proof v).
Definition dealings_at (h : heap) : list (Z * hdealing) -> list (Z * dealing) -> Prop := Forall2 (entry_at (dealing_at h)).
Definition openings_at (h : heap) : list (Z * hopening) -> list (Z * opening) -> Prop := Forall2 (entry_at (opening_at h)).
Definition shares_in (h : heap) (s : hshares) (v : shares) : Prop :=
  match s, v with
  | HSRandom, SRandom | HSOther, SOther => True
  | HSReshareUnmasked p, SReshareUnmasked a => scalar_at h p a
  | HSReshareMasked p m, SReshareMasked a b => scalar_at h p a /\ scalar_at h m b
  | HSTimes p m r, STimes a b c => scalar_at h p a /\ scalar_at h m b /\ scalar_at h r c
  | _, _ => False
  end.
Definition operation_at (h : heap) (o : hoperation) (v : operation) : Prop :=
  match o, v with
  | HTRandom, TRandom | HTOther, TOther => True
  | HTReshareUnmasked c, TReshareUnmasked a => commitment_at h c a
  | HTReshareMasked c, TReshareMasked a => commitment_at h c a
  | HTTimes c e, TTimes a b => commitment_at h c a /\ commitment_at h e b
  | _, _ => False
  end.
Definition complaint_at (h : heap) (c : hcomplaint) (v : complaint) : Prop :=
  dlog_at h (hcp_proof c) (cp_proof v) /\ point_at h (hcp_secret c) (cp_secret v).

(** the cells a value consists of *)
Definition dlog_cells (p : hdlog) : list ptr := [hdl_challenge p; hdl_response p].
Definition eqo_cells (p : heqo) : list ptr := [heo_challenge p; heo_response p].
Definition prod_cells (p : hprod) : list ptr := [hpr_challenge p; hpr_response1 p; hpr_response2 p].
Definition ciphertext_cells (c : hciphertext) : list ptr :=
  match c with
  | HMSingle e p pf ct => e :: p :: dlog_cells pf ++ ct
  | HMPair e p pf ct => e :: p :: dlog_cells pf ++ map fst ct ++ map snd ct
  | HMNil => []
  end.
Definition commitment_cells (c : hcommitment) : list ptr := match hunwrap c with HCSimple l | HCPedersen l => l | _ => [] end.
Definition zk_cells (z : hzkproof) : list ptr := match z with HPNone => [] | HPMasked p => eqo_cells p | HPProduct p => prod_cells p end.
Definition dealing_cells (d : hdealing) : list ptr := ciphertext_cells (hd_ct d) ++ commitment_cells (hd_cm d) ++ zk_cells (hd_proof d).
Definition opening_cells (o : hopening) : list ptr :=
  match o with HOSimple p | HOSimplePtr p => [p] | HOPedersen p m | HOPedersenPtr p m => [p; m] | HONil => [] end.
Definition complaint_cells (c : hcomplaint) : list ptr := hcp_secret c :: dlog_cells (hcp_proof c).
(** the first components of the encrypted pairs *)
Definition first_components (d : hdealing) : list ptr := match hd_ct d with HMPair _ _ _ ct => map fst ct | _ => [] end.
End SpecHeapDeal.
