(** Complaints: complaints/complaints.go. *)
From Coq Require Import ZArith Lia Bool String List DecimalString.
From Verif Require Import Base Zmod Fields ModelScalar ModelXmd ModelRo ModelPoly ModelGroup ModelCommit ModelZk ModelMega
  ModelDealing.
Import ListNotations.
Open Scope Z_scope.

Section Complaint.
Context {X : Oracles} {GO : Grp}.

(** complaints/complaints.go:17-20 *)
Record complaint := mkcomplaint { cp_proof : dlog_proof; cp_secret : G }.

(** complaints/complaints.go:62-69 createProofAssocData *)
Definition assoc_ro (ad : bytes) (receiver dealer : Z) (pk : G) : ro :=
  add_point "receiver_public_key" pk
  (add_uint32 "dealer_index" dealer
  (add_uint32 "receiver_index" receiver
  (add_bytes "associated_data" ad (new_ro (str "ic-crypto-tecdsa-complaint-proof-assoc-data"))))).
(** complaints/complaints.go:62-69 createProofAssocData *)
Definition assoc_data (ad : bytes) (receiver dealer : Z) (pk : G) : res bytes :=
  ro_output_bytes (assoc_ro ad receiver dealer pk) 32.

(** complaints/complaints.go:46-60 NewComplaintInternal *)
Definition new_complaint (seed : bytes) (d : dealing) (dealer receiver : Z) (sk : Fq) (pk : G) (ad : bytes)
  : res complaint :=
  do e <- m_eph (d_ct d);
  do a <- assoc_data ad receiver dealer pk;
  do pf <- dlog_create seed sk genG e a;
  Ok (mkcomplaint pf (smul sk e)).

(** fmt.Sprintf("...%d") at complaints/complaints.go:29 *)
Definition decimal (z : Z) : bytes := str (NilEmpty.string_of_int (Z.to_int z)).
(** complaints/complaints.go:29 *)
Definition complaint_dst (dealer : Z) : bytes := str "ic-crypto-tecdsa-complaint-against-" ++ decimal dealer.

(** complaints/complaints.go:22-44 GenerateComplaints: the Scan and the map it
    fills; the error variable is overwritten by every iteration *)
Fixpoint complaints_loop (ds : list (Z * dealing)) (ad : bytes) (receiver : Z) (sk : Fq) (pk : G) (seed : bytes)
  : res (list (Z * complaint)) :=
  match ds with
  | [] => Ok []
  | (i, d) :: ds =>
    match m_decrypt_and_check (d_ct d) (d_cm d) ad i receiver sk pk with
    | Ok _ => complaints_loop ds ad receiver sk pk seed
    | Err =>
      do s <- seed_derive seed (complaint_dst i);
      do c <- new_complaint s d i receiver sk pk ad;
      do r <- complaints_loop ds ad receiver sk pk seed;
      Ok ((i, c) :: r)
    | Panic => Panic
    | Diverge => Diverge
    end
  end.
(** complaints/complaints.go:22-44 GenerateComplaints *)
Definition generate_complaints (ds : list (Z * dealing)) (ad : bytes) (receiver : Z) (sk : Fq) (pk : G) (seed : bytes)
  : res (list (Z * complaint)) :=
  do r <- complaints_loop ds ad receiver sk pk seed;
  match r with [] => Err | _ => Ok r end.

(** complaints/complaints.go:71-100 Verify *)
Definition complaint_verify (c : complaint) (d : dealing) (dealer complainer : Z) (pk : G) (ad : bytes) : res unit :=
  do a <- assoc_data ad complainer dealer pk;
  do e <- m_eph (d_ct d);
  do _ <- dlog_verify (cp_proof c) genG e pk (cp_secret c) a;
  do t <- c_type (d_cm d);
  do o <- match d_ct d with
          | MSingle e _ _ ct =>
            if t =? ct_simple
            then do s <- decrypt_single_ss e ct ad dealer complainer pk (cp_secret c); Ok (OSimple s)
            else Err
          | MPair e _ _ ct =>
            if t =? ct_pedersen
            then do s <- decrypt_pair_ss e ct ad dealer complainer pk (cp_secret c); Ok (OPedersen (fst s) (snd s))
            else Err
          | MNil => Err
          end;
  do b <- c_check_opening (d_cm d) complainer o;
  if b then Err else Ok tt.
End Complaint.
