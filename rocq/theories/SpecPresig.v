(** Vocabulary of C74 and C75, independent of the code.
    (No code of /repo is modelled here.) *)
From Coq Require Import ZArith List.
From Verif Require Import Base Zmod Fields ModelScalar ModelXmd ModelRo ModelPoly ModelGroup ModelCommit ModelDealing ModelKey ModelSign.
Import ListNotations.
Open Scope Z_scope.

(** the shares with the value of node [i]'s numerator, or denominator, replaced *)
Definition with_num (i : Z) (v m : Fq) (shares : list (Z * sig_share)) : list (Z * sig_share) :=
  map (fun e => if fst e =? i then (i, mkshare (OPedersen v m) (ss_den (snd e))) else e) shares.
Definition with_den (i : Z) (v m : Fq) (shares : list (Z * sig_share)) : list (Z * sig_share) :=
  map (fun e => if fst e =? i then (i, mkshare (ss_num (snd e)) (OPedersen v m)) else e) shares.

(** what anybody sees of one signature: the hash as a number, the tweak of the
    path, the randomizer, and the pair (r, s) *)
Record seen := mkseen { sn_e : Fq; sn_tweak : Fq; sn_delta : Fq; sn_r : Fq; sn_s : Fq }.

(** the solution x of the two linear equations
      s1 (k + d1) = e1 + r1 (x + t1),   s2 (k + d2) = e2 + r2 (x + t2) *)
Definition solve_key (s1 : Fq) (a : seen) (s2 : Fq) (b : seen) : Fq :=
  let c1 := fsub (fadd (sn_e a) (fmul (sn_r a) (sn_tweak a))) (fmul s1 (sn_delta a)) in
  let c2 := fsub (fadd (sn_e b) (fmul (sn_r b) (sn_tweak b))) (fmul s2 (sn_delta b)) in
  fdiv (fsub (fmul s2 c1) (fmul s1 c2)) (fsub (fmul s1 (sn_r b)) (fmul s2 (sn_r a))).
(** the four possibilities for the signs lost when s is made low *)
Definition key_candidates (a b : seen) : list Fq :=
  [ solve_key (sn_s a) a (sn_s b) b; solve_key (sn_s a) a (fneg (sn_s b)) b;
    solve_key (fneg (sn_s a)) a (sn_s b) b; solve_key (fneg (sn_s a)) a (fneg (sn_s b)) b ].
(** the signatures are independent equations, whatever the signs *)
Definition independent (a b : seen) : Prop :=
  fmul (sn_s a) (sn_r b) <> fmul (sn_s b) (sn_r a) /\ fmul (sn_s a) (sn_r b) <> fneg (fmul (sn_s b) (sn_r a)).

Section Spec.
Context {X : Oracles} {GO : Grp}.
(** [a] is what is seen of the signature [sg] *)
Definition sees (pa : path) (h rnd : bytes) (key presig : transcript) (sg : signature) (a : seen) : Prop :=
  exists ro, derive_rho h rnd pa key presig = Ok ro /\ hash_to_integer h = Ok (sn_e a) /\
    sn_tweak a = ro_tweak ro /\ sn_delta a = ro_randomizer ro /\ sn_r a = sg_r sg /\ sn_s a = sg_s sg.
(** the attack: take the candidate that belongs to the public key *)
Definition recover_key (K : G) (a b : seen) : option Fq :=
  find (fun x => geqb (smul x genG) K) (key_candidates a b).
End Spec.
