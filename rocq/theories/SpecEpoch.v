(** Resharing again and again: what stays the same from one epoch to the next,
    and what an adversary sees who corrupts other nodes in every epoch. *)
From Coq Require Import ZArith List.
From Verif Require Import Base Zmod Fields ModelXmd ModelRo SpecPoly ModelGroup SpecGroup ModelCommit ModelZk ModelMega ModelDealing.
Import ListNotations.
Open Scope Z_scope.

(** [later t t']: [t'] comes from [t] by any number of unmasked resharings, each
    by its own dealers and with its own threshold *)
Inductive later {X : Oracles} {GO : Grp} : transcript -> transcript -> Prop :=
| later_now : forall t, later t t
| later_next : forall t t' t'' th ds,
    new_transcript th ds (TReshareUnmasked (tr_commitment t)) = Ok t' -> later t' t'' -> later t t''.

(** one resharing: who deals, how many coefficients the new polynomials have,
    and which nodes are corrupted in the epoch that follows *)
Record round := mkround { rd_dealers : list Z; rd_t : nat; rd_bad : list Z }.
(** the dealt polynomials, one for each dealer, and the polynomial shared afterwards *)
Definition dealt := (list (list Fq) * list Fq)%type.

(** the shared polynomial is the Lagrange combination of the dealt ones *)
Definition combines (ks : list Z) (ds : list (list Fq)) (po' : list Fq) : Prop :=
  forall x, spec_eval po' x =
    fsum (map (fun j => fmul (spec_lagrange fzero (map node_x ks) j) (spec_eval (nth j ds []) x)) (seq 0 (length ks))).
(** every dealer deals a polynomial of the right length; its constant term is
    their share, unless they are among the corrupted nodes [bad] *)
Definition round_ok (bad : list Z) (po : list Fq) (r : round) (d : dealt) : Prop :=
  length (fst d) = length (rd_dealers r) /\
  (forall j, (j < length (rd_dealers r))%nat -> length (nth j (fst d) []) = rd_t r /\
     (~ In (nth j (rd_dealers r) 0) bad -> spec_eval (nth j (fst d) []) fzero = spec_eval po (node_x (nth j (rd_dealers r) 0)))) /\
  length (snd d) = rd_t r /\ combines (rd_dealers r) (fst d) (snd d).
Fixpoint run_ok (bad : list Z) (po : list Fq) (rs : list round) (tr : list dealt) : Prop :=
  match rs, tr with
  | [], [] => True
  | r :: rs, d :: tr => round_ok bad po r d /\ run_ok (rd_bad r) (snd d) rs tr
  | _, _ => False
  end.

(** what the corrupted nodes see: in every epoch their shares; in every
    resharing the whole polynomials of the dealers corrupted before it, and from
    each dealer the shares for the nodes corrupted after it *)
Definition share (po : list Fq) (i : Z) : Fq := spec_eval po (node_x i).
Definition mem_b (i : Z) (l : list Z) : bool := existsb (Z.eqb i) l.
Fixpoint seen (bad : list Z) (po : list Fq) (rs : list round) (tr : list dealt) : list (list Fq * list (list Fq) * list (list Fq)) :=
  match rs, tr with
  | r :: rs, d :: tr =>
    (map (share po) bad,
     map (fun j => if mem_b (nth j (rd_dealers r) 0) bad then nth j (fst d) [] else []) (seq 0 (length (rd_dealers r))),
     map (fun j => map (share (nth j (fst d) [])) (rd_bad r)) (seq 0 (length (rd_dealers r))))
    :: seen (rd_bad r) (snd d) rs tr
  | _, _ => [(map (share po) bad, [], [])]
  end.
(** adding fixed polynomials to everything that is dealt *)
Definition add_poly (a b : list Fq) : list Fq := map (fun xy => fadd (fst xy) (snd xy)) (combine a b).
Definition add_dealt (a b : dealt) : dealt := (map (fun xy => add_poly (fst xy) (snd xy)) (combine (fst a) (fst b)), add_poly (snd a) (snd b)).
Definition add_run (a b : list dealt) : list dealt := map (fun xy => add_dealt (fst xy) (snd xy)) (combine a b).
(** the lengths of everything that is dealt *)
Fixpoint shaped (rs : list round) (tr : list dealt) : Prop :=
  match rs, tr with
  | [], [] => True
  | r :: rs, d :: tr =>
    length (fst d) = length (rd_dealers r) /\ (forall j, (j < length (rd_dealers r))%nat -> length (nth j (fst d) []) = rd_t r) /\
    length (snd d) = rd_t r /\ shaped rs tr
  | _, _ => False
  end.
