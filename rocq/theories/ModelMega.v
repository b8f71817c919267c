(** MEGa encryption: mega/mega.go, mega/ciphertext.go, mega/key.go.  A public
    key is its point, a private key its scalar. *)
From Coq Require Import ZArith Lia Bool String List.
From Verif Require Import Base Zmod Fields ModelScalar ModelXmd ModelRo ModelPoly ModelGroup ModelCommit ModelZk.
Import ListNotations.
Open Scope Z_scope.

(** mega/mega.go:11-14 *)
Inductive mtype := MTsingle | MTpair.
(** == on MEGaCiphertextType, as at mega/ciphertext.go:190, 325 *)
Definition mtype_eqb (a b : mtype) : bool :=
  match a, b with MTsingle, MTsingle | MTpair, MTpair => true | _, _ => false end.

(** mega/ciphertext.go:14-52 domain separators *)
Definition enc_dst (t : mtype) : bytes :=
  match t with MTsingle => str "ic-crypto-tecdsa-mega-encryption-single-encrypt"
             | MTpair => str "ic-crypto-tecdsa-mega-encryption-pair-encrypt" end.
(** mega/ciphertext.go:24-32 PopBaseDomainSep *)
Definition pop_base_dst (t : mtype) : bytes :=
  match t with MTsingle => str "ic-crypto-tecdsa-mega-encryption-single-pop-base"
             | MTpair => str "ic-crypto-tecdsa-mega-encryption-pair-pop-base" end.
(** mega/ciphertext.go:34-42 PopProofDomainSep *)
Definition pop_proof_dst (t : mtype) : bytes :=
  match t with MTsingle => str "ic-crypto-tecdsa-mega-encryption-single-pop-proof"
             | MTpair => str "ic-crypto-tecdsa-mega-encryption-pair-pop-proof" end.
(** mega/ciphertext.go:44-52 EphemeralKeyDomainSep *)
Definition eph_dst (t : mtype) : bytes :=
  match t with MTsingle => str "ic-crypto-tecdsa-mega-encryption-single-ephemeral-key"
             | MTpair => str "ic-crypto-tecdsa-mega-encryption-pair-ephemeral-key" end.

Section Mega.
Context {X : Oracles} {GO : Grp}.

(** mega/key.go:14-19 GenKeypair: (public, private) *)
Definition gen_keypair (seed : bytes) : res (G * Fq) :=
  do r <- seed_rng seed; do s <- random_scalar r; Ok (mul_by_g (fst s), fst s).

(** mega/mega.go:16-30 megaHashToScalars *)
Definition mega_ro (t : mtype) (dealer recipient : Z) (ad : bytes) (pk eph ss : G) : ro :=
  add_point "shared_secret" ss
  (add_point "ephemeral_key" eph
  (add_point "public_key" pk
  (add_bytes "associated_data" ad
  (add_uint32 "recipient_index" recipient
  (add_uint32 "dealer_index" dealer (new_ro (enc_dst t))))))).
(** mega/mega.go:16-30 megaHashToScalars *)
Definition mega_hash (t : mtype) (dealer recipient : Z) (ad : bytes) (pk eph ss : G) : res (list Fq) :=
  ro_output_scalars (mega_ro t dealer recipient ad pk eph ss) (match t with MTsingle => 1 | MTpair => 2 end).

(** mega/mega.go:37-43 ComputePopBase *)
Definition pop_ro (t : mtype) (ad : bytes) (dealer : Z) (eph : G) : ro :=
  add_point "ephemeral_key" eph
  (add_uint32 "dealer_index" dealer
  (add_bytes "associated_data" ad (new_ro (pop_base_dst t)))).
(** mega/mega.go:37-43 ComputePopBase *)
Definition pop_base (t : mtype) (ad : bytes) (dealer : Z) (eph : G) : res G :=
  ro_output_point (pop_ro t ad dealer eph).

(** mega/mega.go:46-53 VerifyPop *)
Definition verify_pop (t : mtype) (ad : bytes) (dealer : Z) (eph pop : G) (pf : dlog_proof) : res unit :=
  do b <- pop_base t ad dealer eph; dlog_verify pf genG b eph pop ad.

(** mega/mega.go:66-79 ComputeEphKeyAndPop: beta, v, popPublicKey, popProof *)
Definition eph_and_pop (t : mtype) (seed ad : bytes) (dealer : Z) : res (Fq * G * G * dlog_proof) :=
  do sd <- seed_derive seed (eph_dst t);
  do beta <- scalar_from_seed sd;
  let v := mul_by_g beta in
  do b <- pop_base t ad dealer v;
  let pop := smul beta b in
  do sd2 <- seed_derive seed (pop_proof_dst t);
  do pf <- dlog_create sd2 beta genG b ad;
  Ok (beta, v, pop, pf).

(** mega/ciphertext.go:135-140, 229-234 and the interface 54-63.  Points,
    scalars and the proof inside a ciphertext are non-nil. *)
Inductive ciphertext :=
| MSingle (eph pop : G) (pf : dlog_proof) (ct : list Fq)        (* *MEGaCiphertextSingle *)
| MPair (eph pop : G) (pf : dlog_proof) (ct : list (Fq * Fq))   (* *MEGaCiphertextPair *)
| MNil.                                                          (* nil interface *)

(** mega/ciphertext.go:93-133 checkPlaintexts and checkPlaintextsPair *)
Definition check_plaintexts {A B} (pl : list A) (rc : list B) : res unit :=
  if negb (Nat.eqb (List.length pl) (List.length rc)) then Err
  else match pl with [] => Err | _ => Ok tt end.

(** Go slice element, as hm[0] at mega/ciphertext.go:82 *)
Definition nth_or_panic {A} (l : list A) (i : nat) : res A :=
  match nth_error l i with Some a => Ok a | None => Panic end.

(** mega/ciphertext.go:65-91 EncryptCiphertextSingle *)
Definition encrypt_single (seed : bytes) (pl : list Fq) (rc : list G) (dealer : Z) (ad : bytes) : res ciphertext :=
  do _ <- check_plaintexts pl rc;
  do e <- eph_and_pop MTsingle seed ad dealer;
  let '(beta, v, pop, pf) := e in
  do cts <- mapM (fun ix =>
      let '(i, (pk, pt)) := ix in
      do hm <- mega_hash MTsingle dealer (Z.of_nat i) ad pk v (smul beta pk);
      do h0 <- nth_or_panic hm 0;
      Ok (fadd h0 pt))
    (combine (seq 0 (List.length rc)) (combine rc pl));
  Ok (MSingle v pop pf cts).
(** mega/ciphertext.go:236-262 EncryptCiphertextPair *)
Definition encrypt_pair (seed : bytes) (pl : list (Fq * Fq)) (rc : list G) (dealer : Z) (ad : bytes) : res ciphertext :=
  do _ <- check_plaintexts pl rc;
  do e <- eph_and_pop MTpair seed ad dealer;
  let '(beta, v, pop, pf) := e in
  do cts <- mapM (fun ix =>
      let '(i, (pk, (p0, p1))) := ix in
      do hm <- mega_hash MTpair dealer (Z.of_nat i) ad pk v (smul beta pk);
      do h0 <- nth_or_panic hm 0;
      do h1 <- nth_or_panic hm 1;
      Ok (fadd h0 p0, fadd h1 p1))
    (combine (seq 0 (List.length rc)) (combine rc pl));
  Ok (MPair v pop pf cts).

(** mega/ciphertext.go:155-157, 264-266 Recipients *)
Definition m_recipients (m : ciphertext) : res Z :=
  match m with
  | MSingle _ _ _ c => Ok (Z.of_nat (List.length c))
  | MPair _ _ _ c => Ok (Z.of_nat (List.length c))
  | MNil => Panic
  end.
(** mega/ciphertext.go:163-165, 272-274 Ephemeral *)
Definition m_eph (m : ciphertext) : res G :=
  match m with MSingle e _ _ _ => Ok e | MPair e _ _ _ => Ok e | MNil => Panic end.
(** mega/ciphertext.go:196-198, 284-286 VerifyPop *)
Definition m_verify_pop (m : ciphertext) (ad : bytes) (dealer : Z) : res unit :=
  match m with
  | MSingle e p pf _ => verify_pop MTsingle ad dealer e p pf
  | MPair e p pf _ => verify_pop MTpair ad dealer e p pf
  | MNil => Panic
  end.
(** mega/ciphertext.go:175-180, 309-314 CheckValidity *)
Definition m_check_validity (m : ciphertext) (expected : Z) (ad : bytes) (dealer : Z) : res unit :=
  do n <- m_recipients m;
  if negb (n =? expected) then Err else m_verify_pop m ad dealer.
(** mega/ciphertext.go:181-194, 316-329 VerifyIs (all curve types are K256) *)
Definition m_verify_is (m : ciphertext) (t : mtype) : res unit :=
  match m with
  | MSingle _ _ _ _ => guard (mtype_eqb MTsingle t)
  | MPair _ _ _ _ => guard (mtype_eqb MTpair t)
  | MNil => Panic
  end.

(** Go slice index; as m.CTexts[int(recipientIndex)] at mega/ciphertext.go:208, 296-297 *)
Definition index {A} (l : list A) (i : Z) : res A :=
  if i <? 0 then Panic else nth_or_panic l (Z.to_nat i).

(** mega/ciphertext.go:200-209 DecryptFromSharedSecret (single) *)
Definition decrypt_single_ss (eph : G) (ct : list Fq) (ad : bytes) (dealer recipient : Z) (pk ss : G) : res Fq :=
  if Z.of_nat (List.length ct) <=? recipient then Err
  else
    do hm <- mega_hash MTsingle dealer recipient ad pk eph ss;
    do c <- index ct recipient;
    do h0 <- nth_or_panic hm 0;
    Ok (fsub c h0).
(** mega/ciphertext.go:288-300 DecryptFromSharedSecret (pair) *)
Definition decrypt_pair_ss (eph : G) (ct : list (Fq * Fq)) (ad : bytes) (dealer recipient : Z) (pk ss : G) : res (Fq * Fq) :=
  if Z.of_nat (List.length ct) <=? recipient then Err
  else
    do hm <- mega_hash MTpair dealer recipient ad pk eph ss;
    do c <- index ct recipient;
    do h0 <- nth_or_panic hm 0;
    do h1 <- nth_or_panic hm 1;
    Ok (fsub (fst c) h0, fsub (snd c) h1).

(** mega/ciphertext.go:210-216 and 301-307 Decrypt, wrapped as the opening
    DecryptAndCheck builds from it *)
Definition m_decrypt (m : ciphertext) (ad : bytes) (dealer recipient : Z) (sk : Fq) (pk : G) : res opening :=
  do _ <- m_verify_pop m ad dealer;
  match m with
  | MSingle e _ _ ct => do s <- decrypt_single_ss e ct ad dealer recipient pk (smul sk e); Ok (OSimple s)
  | MPair e _ _ ct => do s <- decrypt_pair_ss e ct ad dealer recipient pk (smul sk e); Ok (OPedersen (fst s) (snd s))
  | MNil => Panic
  end.
(** mega/ciphertext.go:217-227 and 330-342 DecryptAndCheck *)
Definition m_decrypt_and_check (m : ciphertext) (c : commitment) (ad : bytes) (dealer recipient : Z) (sk : Fq) (pk : G)
  : res opening :=
  do o <- m_decrypt m ad dealer recipient sk pk;
  do b <- c_check_opening c recipient o;
  if b then Ok o else Err.
End Mega.
