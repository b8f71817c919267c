(** Memory specification: which cells a computation may change. *)
From Coq Require Import ZArith List Arith.
From Verif Require Import Base Zmod Fields ModelScalar ModelXmd ModelRo ModelPoly ModelGroup ModelCommit ModelSign ModelHeap ModelHeapSign.
Import ListNotations.

Section SpecHeap.
Context {X : Oracles} {GO : Grp}.
(** every cell that existed before, other than those in [ws], is there with
    the same content *)
Definition unchanged_but (ws : list ptr) (h h' : heap) : Prop :=
  forall p, (p < List.length h)%nat -> ~ In p ws -> nth_error h' p = nth_error h p.
Definition unchanged (h h' : heap) : Prop := unchanged_but [] h h'.
(** a cell that did not exist before *)
Definition fresh (h : heap) (p : ptr) : Prop := (List.length h <= p)%nat.
(** whatever the memory, only [ws] may change, and a result satisfies [P] *)
Definition writes_only {A} (ws : list ptr) (m : M A) (P : heap -> A -> Prop) : Prop :=
  forall h, unchanged_but ws h (fst (m h)) /\ forall a, snd (m h) = Ok a -> P h a.
End SpecHeap.

Section SpecHeap2.
Context {X : Oracles} {GO : Grp}.
(** every scalar keeps its value *)
Definition scalars_kept (h h' : heap) : Prop :=
  forall p v, nth_error h p = Some (VS v) -> nth_error h' p = Some (VS v).
(** [m] run in [h] has the outcome [r]; results are related by [R] in the final
    memory, and only [ws] changes *)
Definition computes {A B} (ws : list ptr) (h : heap) (m : M A) (R : heap -> A -> B -> Prop) (r : res B) : Prop :=
  unchanged_but ws h (fst (m h)) /\
  match snd (m h), r with
  | Ok a, Ok b => R (fst (m h)) a b
  | Err, Err | Panic, Panic | Diverge, Diverge => True
  | _, _ => False
  end.

(** reading values out of a memory *)
Definition scalar_at (h : heap) (p : ptr) (v : Fq) : Prop := nth_error h p = Some (VS v).
Definition point_at (h : heap) (p : ptr) (P : G) : Prop := nth_error h p = Some (VP P).
Definition scalars_at (h : heap) (ps : list ptr) (vs : list Fq) : Prop := Forall2 (scalar_at h) ps vs.
Definition points_at (h : heap) (ps : list ptr) (vs : list G) : Prop := Forall2 (point_at h) ps vs.
Definition poly_at (h : heap) (p : ptr) (vs : list Fq) : Prop :=
  exists cs, nth_error h p = Some (VQ cs) /\ scalars_at h cs vs.
(** new cells holding values; polynomials with cells of their own *)
Definition new_scalar (h h' : heap) (p : ptr) (v : Fq) : Prop := scalar_at h' p v /\ fresh h p.
Definition new_point (h h' : heap) (p : ptr) (P : G) : Prop := point_at h' p P /\ fresh h p.
Definition new_scalars (h h' : heap) (ps : list ptr) (vs : list Fq) : Prop :=
  scalars_at h' ps vs /\ Forall (fresh h) ps /\ NoDup ps.
Definition new_points (h h' : heap) (ps : list ptr) (vs : list G) : Prop :=
  points_at h' ps vs /\ Forall (fresh h) ps /\ NoDup ps.
Definition poly_of_new_scalars (h h' : heap) (p : ptr) (vs : list Fq) : Prop :=
  exists cs, nth_error h' p = Some (VQ cs) /\ new_scalars h h' cs vs.
Definition opening_at (h : heap) (o : hopening) (v : opening) : Prop :=
  match o, v with
  | HOSimple p, OSimple a | HOSimplePtr p, OSimplePtr a => scalar_at h p a
  | HOPedersen p m, OPedersen a b | HOPedersenPtr p m, OPedersenPtr a b => scalar_at h p a /\ scalar_at h m b
  | HONil, ONil => True
  | _, _ => False
  end.
Fixpoint commitment_at (h : heap) (c : hcommitment) (v : commitment) : Prop :=
  match c, v with
  | HCSimple l, CSimple vs | HCPedersen l, CPedersen vs => points_at h l vs
  | HCSum c, CSum v | HCInterp c, CInterp v => commitment_at h c v
  | HCNil, CNil => True
  | _, _ => False
  end.
Definition share_at (h : heap) (a : Z * hshare) (b : Z * sig_share) : Prop :=
  fst a = fst b /\ opening_at h (hs_num (snd a)) (ss_num (snd b)) /\ opening_at h (hs_den (snd a)) (ss_den (snd b)).
Definition new_commitment (h h' : heap) (c : hcommitment) (v : commitment) : Prop :=
  commitment_at h' c v /\
  match hunwrap c with HCSimple l | HCPedersen l => Forall (fresh h) l /\ NoDup l | _ => True end.
Definition new_opening (h h' : heap) (o : hopening) (v : opening) : Prop :=
  opening_at h' o v /\
  match o with
  | HOSimple p | HOSimplePtr p => fresh h p
  | HOPedersen p m | HOPedersenPtr p m => fresh h p /\ fresh h m /\ p <> m
  | HONil => True
  end.
End SpecHeap2.
