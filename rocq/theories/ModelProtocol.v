(** The protocol drivers of testutils/: key generation, dealing, opening,
    complaints, resharing, multiplication and signing by all nodes.
    Slice positions and map sizes are far below 2^63, so [int] arithmetic on
    them is exact. *)
From Coq Require Import ZArith Lia Bool String List.
From Verif Require Import Base Zmod Fields ModelScalar ModelXmd ModelRo ModelPoly ModelGroup ModelCommit ModelZk ModelMega
  ModelDealing ModelComplaint ModelKey ModelSign.
Import ListNotations.
Open Scope Z_scope.

Section Protocol.
Context {X : Oracles} {GO : Grp}.
(** the bytes of poly/commitment.go:162-182 and 285-305 Serialize (cbor.Marshal
    of a struct, external): used only to seed complaints, so left arbitrary *)
Context (cbor_cm : commitment -> bytes).

(** testutils/protocol_setup.go:11-19 ProtocolSetup *)
Record setup := mksetup {
  su_threshold : Z; su_receivers : Z; su_ad : bytes; su_pk : list G; su_sk : list Fq; su_seed : bytes; su_round : Z }.

(** testutils/protocol_setup.go:21-42 NewProtocolSetup; the private keys are
    drawn one after the other (mega/key.go:78-83 GeneratePrivateKey, 71-73
    PublicKey) *)
Definition new_setup (receivers threshold : Z) (seed : bytes) : res setup :=
  do rn <- seed_rng seed;
  let '(ad, rn) := fill_uint8 rn (repeat 0 32) in
  do n <- go_make receivers;
  do k <- random_scalars n rn;
  Ok (mksetup threshold receivers ad (map mul_by_g (fst k)) (fst k) seed 0).

(** testutils/protocol_setup.go:44-48 NextDealingSeed *)
Definition round_dst (round : Z) : bytes := str "ic-crypto-tecdsa-round-" ++ decimal round.
(** testutils/protocol_setup.go:44-48 NextDealingSeed *)
Definition next_dealing_seed (su : setup) : res (bytes * setup) :=
  do s <- seed_derive (su_seed su) (round_dst (su_round su));
  Ok (s, mksetup (su_threshold su) (su_receivers su) (su_ad su) (su_pk su) (su_sk su) (su_seed su) (su_round su + 1)).
(** testutils/protocol_setup.go:49-53 RemoveNodes: p.Pk[0:p.Receivers]; extending
    back into the capacity of a shortened slice is in ModelSetup *)
Definition remove_nodes (su : setup) (removing : Z) : res setup :=
  let n := su_receivers su - removing in
  if (n <? 0) || (Z.of_nat (List.length (su_pk su)) <? n) then Panic
  else Ok (mksetup (su_threshold su) n (su_ad su) (firstn (Z.to_nat n) (su_pk su)) (firstn (Z.to_nat n) (su_sk su))
             (su_seed su) (su_round su)).
(** testutils/protocol_setup.go:54-56 ModifyThreshold *)
Definition modify_threshold (su : setup) (threshold : Z) : setup :=
  mksetup threshold (su_receivers su) (su_ad su) (su_pk su) (su_sk su) (su_seed su) (su_round su).
(** testutils/protocol_setup.go:57-68 ReceiverInfo *)
Definition receiver_info (su : setup) : res (list (Fq * G * Z)) :=
  do n <- go_make (su_receivers su);
  mapM (fun i => do sk <- nth_or_panic (su_sk su) i; do pk <- nth_or_panic (su_pk su) i; Ok (sk, pk, Z.of_nat i)) (seq 0 n).

(** testutils/test_utils.go:69-80: a check whose failure, resp. success, the drivers answer with panic *)
Definition must_pass (r : res unit) : res unit := match r with Err => Panic | r => r end.
(** testutils/test_utils.go:69-80 *)
Definition must_fail (r : res unit) : res unit := match r with Ok _ => Panic | Err => Ok tt | r => r end.

(** testutils/test_utils.go:68-81 TestPublicDealingVerification *)
Definition test_public (su : setup) (d : dealing) (op : operation) (dealer : Z) : res unit :=
  let th := su_threshold su in
  let n := su_receivers su in
  do _ <- must_pass (publicly_verify d op th dealer n (su_ad su));
  do _ <- must_fail (publicly_verify d op th (dealer + 1) n (su_ad su));
  do _ <- must_fail (publicly_verify d op th (dealer + 1) (n + 1) (su_ad su));
  must_fail (publicly_verify d op th (dealer + 1) (n + 1) (str "wrong ad")).

(** testutils/dealings.go:89-104: the dealing loop; the map entry is written
    inside the loop over the recipients *)
Fixpoint deal_loop (su : setup) (op : operation) (i : Z) (sh : list shares) (rn : rng) : res (list (Z * dealing) * rng) :=
  match sh with
  | [] => Ok ([], rn)
  | s :: sh =>
    do sd <- seed_from_rng rn; let '(sd, rn) := sd in
    do d <- new_dealing s sd (su_threshold su) (su_pk su) i (su_ad su);
    do _ <- test_public su d op i;
    do ri <- receiver_info su;
    do _ <- mapM (fun r => let '(sk, pk, j) := r in private_verify d sk pk (su_ad su) i j) ri;
    do r <- deal_loop su op (i + 1) sh rn; let '(r, rn) := r in
    Ok (match ri with [] => r | _ => (i, d) :: r end, rn)
  end.

(** btree Delete of the key at a position, testutils/dealings.go:68 and 107 *)
Fixpoint remove_nth {A} (n : nat) (l : list A) : list A :=
  match n, l with O, _ :: l => l | S n, a :: l => a :: remove_nth n l | _, [] => [] end.
(** testutils/dealings.go:105-108 and 66-69: random deletion down to [num]
    entries; the remainder by an empty map's length is a division by zero *)
Fixpoint delete_loop {A} (fuel : nat) (ds : list A) (num : Z) (rn : rng) : res (list A * rng) :=
  if Z.of_nat (List.length ds) <=? num then Ok (ds, rn)
  else match fuel, ds with
       | O, _ => Diverge
       | _, [] => Panic
       | S fuel, _ =>
         let '(u, rn) := rng_uint32 rn in
         delete_loop fuel (remove_nth (Z.to_nat (u mod Z.of_nat (List.length ds))) ds) num rn
       end.
(** as many rounds as there are entries always suffice; testutils/dealings.go:105-108, 66-69 *)
Definition delete_down {A} (ds : list A) (num : Z) (rn : rng) : res (list A * rng) := delete_loop (S (List.length ds)) ds num rn.

(** btree Set, testutils/dealings.go:114, 123, 144: ascending keys, an existing entry is replaced *)
Fixpoint zset {A} (k : Z) (a : A) (l : list (Z * A)) : list (Z * A) :=
  match l with
  | [] => [(k, a)]
  | (i, b) :: l' => if k <? i then (k, a) :: l else if k =? i then (k, a) :: l' else (i, b) :: zset k a l'
  end.

(** testutils/dealings.go:109-115: choice of the dealings to damage; runs until
    enough different ones are drawn *)
Fixpoint damage_loop (fuel : nat) (ds acc : list (Z * dealing)) (num : Z) (rn : rng) : res (list (Z * dealing) * rng) :=
  if num <=? Z.of_nat (List.length acc) then Ok (acc, rn)
  else match fuel, ds with
       | O, _ => Diverge
       | _, [] => Panic
       | S fuel, _ =>
         let '(u, rn) := rng_uint32 rn in
         do e <- nth_or_panic ds (Z.to_nat (u mod Z.of_nat (List.length ds)));
         damage_loop fuel ds (zset (fst e) (snd e) acc) num rn
       end.
(** testutils/dealings.go:121-124: choice of the recipients to damage *)
Fixpoint target_loop (fuel : nat) (acc : list (Z * unit)) (num receivers : Z) (rn : rng) : res (list (Z * unit) * rng) :=
  if num <=? Z.of_nat (List.length acc) then Ok (acc, rn)
  else if receivers =? 0 then Panic
  else match fuel with
       | O => Diverge
       | S fuel =>
         let '(u, rn) := rng_uint32 rn in
         target_loop fuel (zset (Z.rem u receivers) tt acc) num receivers rn
       end.

(** testutils/test_utils.go:23-25, 38-40: ctexts[target] = f(ctexts[target]) *)
Fixpoint update_nth {A} (n : nat) (f : A -> A) (l : list A) : list A :=
  match n, l with O, a :: l => f a :: l | S n, a :: l => a :: update_nth n f l | _, [] => [] end.
(** testutils/test_utils.go:23-25, 38-40 *)
Fixpoint update_all {A} (ts : list Z) (f : A -> A) (l : list A) : res (list A) :=
  match ts with
  | [] => Ok l
  | t :: ts => do _ <- index l t; update_all ts f (update_nth (Z.to_nat t) f l)
  end.
(** testutils/test_utils.go:12-57 CorruptDealing.  In the pair case the scalars
    are shared with the original dealing, which CreateDealings drops
    (ModelHeapDeal.h_corrupt_dealing has the cells).  Simplification: Clone of
    the commitment (50) drops a wrapper; here the commitment is kept as it is,
    the same for the commitments that NewDealing makes, which have none. *)
Definition corrupt_dealing (d : dealing) (targets : list Z) (seed : bytes) : res dealing :=
  do _ <- c_curve (d_cm d);
  do rn <- seed_rng seed;
  do r <- random_scalar rn; let r := fst r in
  match d_ct d with
  | MSingle e p pf ct => do ct <- update_all targets (fun c => fadd c r) ct; Ok (mkdealing (MSingle e p pf ct) (d_cm d) (d_proof d))
  | MPair e p pf ct =>
    do ct <- update_all targets (fun c => (fadd (fst c) r, snd c)) ct; Ok (mkdealing (MPair e p pf ct) (d_cm d) (d_proof d))
  | MNil => Ok (mkdealing MNil (d_cm d) (d_proof d))
  end.
(** testutils/dealings.go:130-143: exactly the corrupted recipients fail *)
Definition check_corrupted (su : setup) (d : dealing) (dealer : Z) (targets : list (Z * unit)) : res unit :=
  do ri <- receiver_info su;
  do _ <- mapM (fun r => let '(sk, pk, j) := r in
      match private_verify d sk pk (su_ad su) dealer j, zlookup j targets with
      | Err, None => Panic
      | Ok _, Some _ => Panic
      | Panic, _ => Panic
      | Diverge, _ => Diverge
      | _, _ => Ok tt
      end) ri;
  Ok tt.
(** testutils/dealings.go:116-145: damage the chosen dealings *)
Fixpoint corrupt_loop (su : setup) (todo ds : list (Z * dealing)) (rn : rng) : res (list (Z * dealing)) :=
  match todo with
  | [] => Ok ds
  | (k, d) :: todo =>
    let '(u, rn) := rng_uint32 rn in
    if su_threshold su =? 0 then Panic
    else
      do t <- target_loop rand_fuel [] (Z.rem u (su_threshold su) + 1) (su_receivers su) rn; let '(ts, rn) := t in
      do sd <- seed_from_rng rn; let '(sd, rn) := sd in
      do bad <- corrupt_dealing d (map fst ts) sd;
      do _ <- check_corrupted su bad k ts;
      corrupt_loop su todo (zset k bad ds) rn
  end.
(** testutils/dealings.go:86-147 CreateDealings *)
Definition create_dealings (su : setup) (sh : list shares) (dealers corrupted : Z) (op : operation) (seed : bytes)
  : res (list (Z * dealing)) :=
  do rn <- seed_rng seed;
  do r <- deal_loop su op 0 sh rn; let '(ds, rn) := r in
  do r <- delete_down ds dealers rn; let '(ds, rn) := r in
  do r <- damage_loop rand_fuel ds [] corrupted rn; let '(bad, rn) := r in
  corrupt_loop su bad ds rn.

(** testutils/dealings.go:45-65: the openings other receivers provide for one
    dealing *)
Fixpoint open_for (su : setup) (d : dealing) (dealer receiver : Z) (ri : list (Fq * G * Z)) : res (list (Z * opening)) :=
  match ri with
  | [] => Ok []
  | (sk, pk, opener) :: ri =>
    if opener =? receiver then open_for su d dealer receiver ri
    else match private_verify d sk pk (su_ad su) dealer opener with
         | Err => open_for su d dealer receiver ri
         | Panic => Panic
         | Diverge => Diverge
         | Ok _ =>
           do sk <- index (su_sk su) opener;
           do pk <- index (su_pk su) opener;
           do o <- or_panic (open_dealing d (su_ad su) dealer opener sk pk);
           do b <- c_check_opening (d_cm d) opener o;
           if b then do r <- open_for su d dealer receiver ri; Ok ((opener, o) :: r) else Err
         end
  end.
(** testutils/dealings.go:35-72: the scan over the complaints of one receiver *)
Fixpoint answer_loop (su : setup) (ds : list (Z * dealing)) (receiver : Z) (pk : G) (cs : list (Z * complaint)) (rn : rng)
  : res (list (Z * list (Z * opening)) * rng) :=
  match cs with
  | [] => Ok ([], rn)
  | (k, c) :: cs =>
    match zlookup k ds with
    | None => Err
    | Some d =>
      do _ <- complaint_verify c d k receiver pk (su_ad su);
      do ri <- receiver_info su;
      do os <- open_for su d k receiver ri;
      do r <- delete_down os (su_threshold su) rn; let '(os, rn) := r in
      do r <- answer_loop su ds receiver pk cs rn; let '(r, rn) := r in
      Ok ((k, os) :: r, rn)
    end
  end.
(** testutils/dealings.go:30: fmt.Sprintf("complaint-%d", receiver) *)
Definition receiver_dst (i : Z) : bytes := str "complaint-" ++ decimal i.
(** testutils/dealings.go:25-82: the loop over the receivers *)
Fixpoint open_loop (su : setup) (ds : list (Z * dealing)) (tc : commitment) (seed : bytes) (is : list nat) (rn : rng)
  : res (list opening) :=
  match is with
  | [] => Ok []
  | i :: is =>
    let rcv := Z.of_nat i in
    do sk <- nth_or_panic (su_sk su) i;
    do pk <- nth_or_panic (su_pk su) i;
    match from_dealings ds tc (su_ad su) rcv sk pk with
    | Ok o => do r <- open_loop su ds tc seed is rn; Ok (o :: r)
    | Panic => Panic
    | Diverge => Diverge
    | Err =>
      do s <- seed_derive seed (receiver_dst rcv);
      do cs <- generate_complaints ds (su_ad su) rcv sk pk s;
      do r <- answer_loop su ds rcv pk cs rn; let '(provided, rn) := r in
      do o <- or_panic (from_dealings_and_openings ds provided tc (su_ad su) rcv sk pk);
      do r <- open_loop su ds tc seed is rn; Ok (o :: r)
    end
  end.
(** testutils/dealings.go:23 *)
Definition opening_rng_dst : bytes := str "rng".
(** testutils/dealings.go:15-84 OpenDealings; Serialize reads the curve type of
    the first point *)
Definition open_dealings (su : setup) (ds : list (Z * dealing)) (t : transcript) : res (list opening) :=
  do n <- go_make (su_receivers su);
  do _ <- c_curve (tr_commitment t);
  do seed <- seed_from_bytes (cbor_cm (tr_commitment t));
  do s <- seed_derive seed opening_rng_dst;
  do rn <- seed_rng s;
  open_loop su ds (tr_commitment t) seed (seq 0 n) rn.

(** testutils/protocol_round.go:16-21 ProtocolRound *)
Record round := mkround {
  rd_commitment : commitment; rd_transcript : transcript; rd_openings : list opening; rd_dealings : list (Z * dealing) }.
(** poly/commitment.go:152-160, 274-283 Clone; through a wrapper it is the
    embedded commitment's method and the copy is not wrapped *)
Definition c_clone (c : commitment) : res commitment := match unwrap c with CNil => Panic | c => Ok c end.
(** testutils/protocol_round.go:30-42 New *)
Definition round_new (su : setup) (ds : list (Z * dealing)) (t : transcript) : res round :=
  do os <- open_dealings su ds t;
  do c <- c_clone (tr_commitment t);
  Ok (mkround c t os ds).
(** the common end of the four kinds of rounds, testutils/protocol_round.go:50-58,
    70-80, 93-101, 118-126, with testutils/transcript.go CreateTranscript *)
Definition round_run (su : setup) (sh : list shares) (dealers corrupted : Z) (op : operation) : res (round * setup) :=
  do s <- next_dealing_seed su; let '(s, su) := s in
  do ds <- create_dealings su sh dealers corrupted op s;
  do t <- new_transcript (su_threshold su) ds op;
  do r <- round_new su ds t;
  Ok (r, su).
(** testutils/protocol_round.go:44-59 Random *)
Definition round_random (su : setup) (dealers corrupted : Z) : res (round * setup) :=
  do n <- go_make dealers;
  round_run su (repeat SRandom n) dealers corrupted TRandom.
(** testutils/protocol_round.go:60-81 ReshareOfMasked *)
Definition round_reshare_masked (su : setup) (masked : round) (dealers corrupted : Z) : res (round * setup) :=
  do sh <- mapM (fun o => match o with OPedersen v m => Ok (SReshareMasked v m) | _ => Panic end) (rd_openings masked);
  do p <- c_clone (rd_commitment masked);
  round_run su sh dealers corrupted (TReshareMasked p).
(** testutils/protocol_round.go:83-102 ReshareOfUnmasked *)
Definition round_reshare_unmasked (su : setup) (unmasked : round) (dealers corrupted : Z) : res (round * setup) :=
  do sh <- mapM (fun o => match o with OSimple v => Ok (SReshareUnmasked v) | _ => Panic end) (rd_openings unmasked);
  do p <- c_clone (rd_commitment unmasked);
  round_run su sh dealers corrupted (TReshareUnmasked p).
(** testutils/protocol_round.go:104-127 Multiply *)
Fixpoint times_shares (us ms : list opening) : res (list shares) :=
  match us with
  | [] => Ok []
  | u :: us =>
    match u, ms with
    | OSimple l, OPedersen r rm :: ms => do sh <- times_shares us ms; Ok (STimes l r rm :: sh)
    | _, _ => Panic
    end
  end.
(** testutils/protocol_round.go:104-127 Multiply *)
Definition round_multiply (su : setup) (masked unmasked : round) (dealers corrupted : Z) : res (round * setup) :=
  do sh <- times_shares (rd_openings unmasked) (rd_openings masked);
  do l <- c_clone (rd_commitment unmasked);
  do r <- c_clone (rd_commitment masked);
  round_run su sh dealers corrupted (TTimes l r).

(** testutils/protocol_round.go:128-182 VerifyCommitmentOpenings; openings of
    the other type are left out *)
Definition simple_samples (os : list opening) : list (Z * Fq) :=
  flat_map (fun e => match snd e with OSimple v => [(Z.of_nat (fst e), v)] | _ => [] end) (combine (seq 0 (List.length os)) os).
(** testutils/protocol_round.go:157-163 *)
Definition pedersen_samples (os : list opening) : list (Z * (Fq * Fq)) :=
  flat_map (fun e => match snd e with OPedersen v m => [(Z.of_nat (fst e), (v, m))] | _ => [] end) (combine (seq 0 (List.length os)) os).
(** testutils/protocol_round.go:128-182 VerifyCommitmentOpenings *)
Definition verify_commitment_openings (c : commitment) (os : list opening) : res unit :=
  do k <- c_constant_term c;
  match c with
  | CSimple _ =>
    let s := simple_samples os in
    do cs <- lagrange_at_zero (map fst s);
    do v <- interpolate_scalar cs (map snd s);
    guard (geqb (mul_by_g v) k)
  | _ =>
    let s := pedersen_samples os in
    do cs <- lagrange_at_zero (map fst s);
    do v <- interpolate_scalar cs (map (fun e => fst (snd e)) s);
    do m <- interpolate_scalar cs (map (fun e => snd (snd e)) s);
    guard (geqb (pedersen v m) k)
  end.

(** testutils/signature_protocol_setup.go:22-29 SignatureProtocolSetup *)
Record sig_setup := mksigsetup {
  ps_setup : setup; ps_key : round; ps_kappa : round; ps_lambda : round; ps_key_lambda : round; ps_kappa_lambda : round }.
(** testutils/signature_protocol_setup.go:31-69 NewSignatureProtocolSetup *)
Definition new_sig_setup (dealers threshold corrupted : Z) (seed : bytes) : res sig_setup :=
  do su <- new_setup dealers threshold seed;
  do r <- round_random su dealers corrupted; let '(key0, su) := r in
  do r <- round_random su dealers corrupted; let '(kappa0, su) := r in
  do r <- round_random su dealers corrupted; let '(lambda, su) := r in
  do r <- round_reshare_masked su key0 dealers corrupted; let '(key, su) := r in
  do r <- round_reshare_masked su kappa0 dealers corrupted; let '(kappa, su) := r in
  do r <- round_multiply su lambda key dealers corrupted; let '(key_lambda, su) := r in
  do r <- round_multiply su lambda kappa dealers corrupted; let '(kappa_lambda, su) := r in
  Ok (mksigsetup su key kappa lambda key_lambda kappa_lambda).

(** testutils/signature_protocol_setup.go:93-106 GenerateShares *)
Fixpoint share_loop (s : sig_setup) (pa : path) (hashed beacon : bytes) (is : list nat) : res (list (Z * sig_share)) :=
  match is with
  | [] => Ok []
  | i :: is =>
    do l <- nth_or_panic (rd_openings (ps_lambda s)) i;
    do kl <- nth_or_panic (rd_openings (ps_kappa_lambda s)) i;
    do xl <- nth_or_panic (rd_openings (ps_key_lambda s)) i;
    do sh <- new_share pa hashed beacon (rd_transcript (ps_key s)) (rd_transcript (ps_kappa s)) l kl xl;
    do _ <- share_verify sh pa hashed beacon (Z.of_nat i) (rd_transcript (ps_key s)) (rd_transcript (ps_kappa s))
              (rd_transcript (ps_lambda s)) (rd_transcript (ps_kappa_lambda s)) (rd_transcript (ps_key_lambda s));
    do r <- share_loop s pa hashed beacon is;
    Ok ((Z.of_nat i, sh) :: r)
  end.
(** testutils/signature_protocol_setup.go:83-92 NewSignatureProtocolExecution:
    the message is hashed with SHA-256 *)
Definition generate_shares (s : sig_setup) (pa : path) (message beacon : bytes) : res (list (Z * sig_share)) :=
  do n <- match su_receivers (ps_setup s) <? 0 with true => Ok O | false => Ok (Z.to_nat (su_receivers (ps_setup s))) end;
  share_loop s pa (sha256 message) beacon (seq 0 n).
(** testutils/signature_protocol_setup.go:107-109 GenerateSignature *)
Definition generate_signature (s : sig_setup) (pa : path) (message beacon : bytes) (sh : list (Z * sig_share)) : res signature :=
  combine_sig pa (sha256 message) beacon (rd_transcript (ps_key s)) (rd_transcript (ps_kappa s)) (su_threshold (ps_setup s)) sh.
(** testutils/signature_protocol_setup.go:71-73 PublicKey *)
Definition public_key (s : sig_setup) (pa : path) : res (bytes * bytes) :=
  do k <- tr_constant_term (rd_transcript (ps_key s)); derive_public_key (ser k) pa.
(** testutils/signature_protocol_setup.go:111-128 VerifySignature without the
    final crypto/ecdsa call, whose answer is the subject of the theorems *)
Definition verify_signature (s : sig_setup) (pa : path) (message beacon : bytes) (t : signature) : res G :=
  do _ <- sig_verify t pa (sha256 message) beacon (rd_transcript (ps_key s)) (rd_transcript (ps_kappa s));
  do pk <- public_key s pa;
  deser (fst pk).
End Protocol.
