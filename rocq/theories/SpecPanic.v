(** Malformed data that can reach the verifying functions: what makes a
    commitment, a ciphertext or a transcript usable, and for every function
    the condition under which it panics.  The conditions speak about the shape
    of the arguments and about whether a proof contained in them is correct. *)
From Coq Require Import ZArith List.
From Verif Require Import Base Zmod Fields ModelXmd ModelGroup ModelCommit ModelMega ModelZk ModelDealing ModelComplaint SpecDealing.
Import ListNotations.
Open Scope Z_scope.

Section Spec.
Context {X : Oracles} {GO : Grp}.

(** neither nil nor without points *)
Definition usable (c : commitment) : Prop := is_cm c /\ pts_of c <> [].
Definition of_simple (c : commitment) : Prop := exists l, unwrap c = CSimple l.
Definition of_pedersen (c : commitment) : Prop := exists l, unwrap c = CPedersen l.
Definition is_single (m : ciphertext) : Prop := exists e p pf ct, m = MSingle e p pf ct.
Definition is_pair (m : ciphertext) : Prop := exists e p pf ct, m = MPair e p pf ct.
(** ciphertext and commitment are of one kind *)
Definition same_kind (m : ciphertext) (c : commitment) : Prop :=
  is_single m /\ of_simple c \/ is_pair m /\ of_pedersen c.

(** PubliclyVerify, once commitment and ciphertext have passed: which
    combinations of operation and proof panic *)
Definition proof_crashes (d : dealing) (op : operation) : Prop :=
  match op, d_proof d with
  | TTimes _ _, PNone => True
  | TTimes l r, PProduct _ => of_pedersen (d_cm d) /\ is_pair (d_ct d) /\ (~ usable l \/ of_simple l /\ ~ usable r)
  | TReshareMasked p, PMasked _ => of_simple (d_cm d) /\ is_single (d_ct d) /\ ~ usable p
  | TReshareUnmasked p, PNone => of_simple (d_cm d) /\ ~ usable p
  | _, _ => False
  end.
Definition public_crash (d : dealing) (op : operation) (threshold dealer receivers : Z) (ad : bytes) : Prop :=
  ~ is_cm (d_cm d) \/
  Z.of_nat (length (pts_of (d_cm d))) = threshold /\
  (threshold = 0 \/ d_ct d = MNil \/ m_check_validity (d_ct d) receivers ad dealer = Ok tt /\ proof_crashes d op).

(** a receiver: no ciphertext at all, or one with a correct proof of
    possession in which the receiver has a place (or gives a negative one),
    beside a commitment of the other kind *)
Definition private_crash (d : dealing) (ad : bytes) (dealer recipient : Z) : Prop :=
  d_ct d = MNil \/
  m_verify_pop (d_ct d) ad dealer = Ok tt /\
  exists n, m_recipients (d_ct d) = Ok n /\ recipient < n /\
    (recipient < 0 \/ ~ (same_kind (d_ct d) (d_cm d) /\ usable (d_cm d))).

(** a verifier of complaints; [proof_ok]: the proof inside the complaint is correct *)
Definition complaint_crash (proof_ok : Prop) (d : dealing) (complainer : Z) : Prop :=
  d_ct d = MNil \/
  proof_ok /\
  (~ is_cm (d_cm d) \/
   same_kind (d_ct d) (d_cm d) /\
   exists n, m_recipients (d_ct d) = Ok n /\ complainer < n /\ (complainer < 0 \/ pts_of (d_cm d) = [])).

(** dealings whose commitments are there and have [threshold] points *)
Definition right_length (threshold : Z) (kd : Z * dealing) : Prop :=
  is_cm (d_cm (snd kd)) /\ Z.of_nat (length (dl_pts kd)) = threshold.
(** NewTranscriptInternal: a missing commitment before any of a wrong length,
    or one of the operands *)
Definition transcript_crash (threshold : Z) (ds : list (Z * dealing)) (op : operation) : Prop :=
  (exists pre kd post, ds = pre ++ kd :: post /\ Forall (right_length threshold) pre /\ ~ is_cm (d_cm (snd kd))) \/
  Forall (right_length threshold) ds /\
  match op with
  | TRandom => threshold < 0
  | TReshareMasked p => ~ is_cm p
  | TReshareUnmasked p => ~ is_cm p \/
      of_simple p /\ ds <> [] /\ Z.of_nat (length (pts_of p)) <= Z.of_nat (length ds) /\ (pts_of p = [] \/ threshold = 0)
  | TTimes l r => ~ is_cm l \/ of_simple l /\ ~ is_cm r
  | TOther => False
  end.

(** a commitment as the code makes it, not behind the wrapper of a transcript *)
Definition bare (c : commitment) : Prop := match c with CSimple _ | CPedersen _ => True | _ => False end.
(** the commitment of a transcript as NewTranscriptInternal makes it *)
Definition transcript_shape (c : commitment) : Prop :=
  exists l, l <> [] /\ (c = CSum (CPedersen l) \/ c = CInterp (CSimple l) \/ c = CInterp (CPedersen l)).
(** DeriveRho *)
Definition rho_crash (key presig : transcript) : Prop :=
  exists c, tr_commitment presig = CInterp c /\
    (~ is_cm c \/ of_simple c /\ (~ bare c \/ pts_of c = [] \/ ~ usable (tr_commitment key))).
End Spec.
