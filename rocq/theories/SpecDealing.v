(** What the dealing layer is supposed to guarantee, in terms of commitments
    and openings only. *)
From Coq Require Import ZArith List.
From Verif Require Import Base Zmod Fields ModelXmd ModelGroup ModelCommit ModelMega ModelZk ModelDealing SpecPoly SpecGroup.
Import ListNotations.
Open Scope Z_scope.

Section Spec.
Context {X : Oracles} {GO : Grp}.

(** the shape of a dealing for a kind of share: number of commitment points,
    number of ciphertexts, and the kinds of commitment, ciphertext and proof *)
Definition well_shaped (sh : shares) (threshold receivers : nat) (d : dealing) : Prop :=
  match sh with
  | SRandom => exists l e p pf ct, d = mkdealing (MPair e p pf ct) (CPedersen l) PNone /\
      length l = threshold /\ length ct = receivers
  | SReshareUnmasked _ => exists l e p pf ct, d = mkdealing (MSingle e p pf ct) (CSimple l) PNone /\
      length l = threshold /\ length ct = receivers
  | SReshareMasked _ _ => exists l e p pf ct z, d = mkdealing (MSingle e p pf ct) (CSimple l) (PMasked z) /\
      length l = threshold /\ length ct = receivers
  | STimes _ _ _ => exists l e p pf ct z, d = mkdealing (MPair e p pf ct) (CPedersen l) (PProduct z) /\
      length l = threshold /\ length ct = receivers
  | SOther => False
  end.

(** the share a dealer deals opens the commitments of the transcripts it
    comes from, at the dealer's index *)
Definition share_consistent (sh : shares) (op : operation) (dealer : Z) : Prop :=
  match sh, op with
  | SRandom, TRandom => True
  | SReshareUnmasked s, TReshareUnmasked p => c_check_opening p dealer (OSimple s) = Ok true
  | SReshareMasked s m, TReshareMasked p => c_check_opening p dealer (OPedersen s m) = Ok true
  | STimes l r rm, TTimes pl pr =>
      c_check_opening pl dealer (OSimple l) = Ok true /\ c_check_opening pr dealer (OPedersen r rm) = Ok true
  | _, _ => False
  end.

(** the opening a receiver finds *)
Definition opening_at (po mo : list Fq) (pair : bool) (i : Z) : opening :=
  if pair then OPedersen (spec_eval po (node_x i)) (spec_eval mo (node_x i)) else OSimple (spec_eval po (node_x i)).

(** the points of a commitment, through wrappers *)
Definition pts_of (c : commitment) : list G := match unwrap c with CSimple l | CPedersen l => l | _ => [] end.
(** not nil *)
Definition is_cm (c : commitment) : Prop := (exists l, unwrap c = CSimple l) \/ (exists l, unwrap c = CPedersen l).
Definition dl_pts (kd : Z * dealing) : list G := pts_of (d_cm (snd kd)).
(** the keys of a Go map of node indices: distinct int64 values *)
Definition keys_ok {A} (l : list (Z * A)) : Prop := Forall int64_ok (map fst l) /\ NoDup (map fst l).
(** openings of the dealings at the receiver, in the order of the dealings *)
Definition opens_all (ds : list (Z * dealing)) (os : list opening) (i : Z) : Prop :=
  Forall2 (fun kd o => c_check_opening (d_cm (snd kd)) i o = Ok true) ds os.
(** operations whose dealings carry simple commitments *)
Definition op_single (op : operation) : bool := match op with TReshareUnmasked _ | TReshareMasked _ => true | _ => false end.
Definition kind_ok (op : operation) (c : commitment) : Prop :=
  if op_single op then unwrap c = CSimple (pts_of c) else unwrap c = CPedersen (pts_of c).
(** every dealing was made by the honest code, dealer [k] dealing the share [sh k] *)
Definition dealt_by (sh : Z -> shares) (th : Z) (ds : list (Z * dealing)) : Prop :=
  forall k d, In (k, d) ds -> exists seed rc ad, new_dealing (sh k) seed th rc k ad = Ok d.
End Spec.
