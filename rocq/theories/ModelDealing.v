(** Dealings, transcripts and combined openings: dealings/*.go. *)
From Coq Require Import ZArith Lia Bool String List.
From Verif Require Import Base Zmod Fields ModelScalar ModelXmd ModelRo ModelPoly ModelGroup ModelCommit ModelZk ModelMega.
Import ListNotations.
Open Scope Z_scope.

Section Dealing.
Context {X : Oracles} {GO : Grp}.

(** dealings/zk_proof.go:12-41: dynamic types of ZkProof (the embedded proof
    pointers are non-nil) *)
Inductive zkproof := PNone | PMasked (p : eqo_proof) | PProduct (p : prod_proof).

(** dealings/dealings.go:54-58 *)
Record dealing := mkdealing { d_ct : ciphertext; d_cm : commitment; d_proof : zkproof }.

(** dealings/secret_shares.go:26-37: dynamic types met by the type switch of
    NewIDkgDealingInternal; SOther is any other value, e.g. the value (not
    pointer) that dealings/secret_shares.go:44 produces, or nil *)
Inductive shares :=
| SRandom
| SReshareUnmasked (s : Fq)
| SReshareMasked (s m : Fq)
| STimes (l r rm : Fq)
| SOther.

(** dealings/dealings.go:13-32 EncryptAndCommitSinglePolynomial *)
Definition encrypt_and_commit_single (po : poly) (num : Z) (rc : list G) (dealer : Z) (ad seed : bytes)
  : res (ciphertext * commitment) :=
  let pl := map (fun i => evaluate_at po (from_node_index (Z.of_nat i))) (seq 0 (List.length rc)) in
  do ct <- encrypt_single seed pl rc dealer ad;
  do cm <- simple_create po num;
  Ok (ct, cm).
(** dealings/dealings.go:34-52 EncryptAndCommitPairPolynomial *)
Definition encrypt_and_commit_pair (va ma : poly) (num : Z) (rc : list G) (dealer : Z) (ad seed : bytes)
  : res (ciphertext * commitment) :=
  let pl := map (fun i => let x := from_node_index (Z.of_nat i) in (evaluate_at va x, evaluate_at ma x))
                (seq 0 (List.length rc)) in
  do ct <- encrypt_pair seed pl rc dealer ad;
  do cm <- pedersen_create va ma num;
  Ok (ct, cm).

(** dealings/dealings.go:66-67 *)
Definition poly_dst : bytes := str "ic-crypto-tecdsa-create-dealing-polynomials".
(** dealings/dealings.go:66-67 *)
Definition mega_dst : bytes := str "ic-crypto-tecdsa-create-dealing-mega-encrypt".
(** dealings/dealings.go:60-120 NewIDkgDealingInternal.  At line 110 the error
    of RandomWithConstant is overwritten; it is nil whenever line 106 passed. *)
Definition new_dealing (sh : shares) (seed : bytes) (threshold : Z) (rc : list G) (dealer : Z) (ad : bytes)
  : res dealing :=
  if (threshold =? 0) || (Z.of_nat (List.length rc) <? threshold) then Err
  else
    do s1 <- seed_derive seed poly_dst;
    do rn <- seed_rng s1;
    do ms <- seed_derive seed mega_dst;
    match sh with
    | SRandom =>
      do v <- poly_random threshold rn; let '(v, rn) := v in
      do m <- poly_random threshold rn; let '(m, rn) := m in
      do e <- encrypt_and_commit_pair v m threshold rc dealer ad ms;
      Ok (mkdealing (fst e) (snd e) PNone)
    | SReshareUnmasked s =>
      do v <- poly_random_with_constant s threshold rn; let '(v, rn) := v in
      do e <- encrypt_and_commit_single v threshold rc dealer ad ms;
      Ok (mkdealing (fst e) (snd e) PNone)
    | SReshareMasked s m =>
      do v <- poly_random_with_constant s threshold rn; let '(v, rn) := v in
      do e <- encrypt_and_commit_single v threshold rc dealer ad ms;
      do ps <- seed_derive seed eqo_dst;
      do pf <- eqo_create ps s m ad;
      Ok (mkdealing (fst e) (snd e) (PMasked pf))
    | STimes l r rm =>
      let product := fmul l r in
      do pm <- random_scalar rn; let '(pm, rn) := pm in
      do v <- poly_random_with_constant product threshold rn; let '(v, rn) := v in
      do m <- or_panic (poly_random_with_constant pm threshold rn); let '(m, rn) := m in
      do e <- encrypt_and_commit_pair v m threshold rc dealer ad ms;
      do ps <- seed_derive seed prod_dst;
      do pf <- or_panic (prod_create ps l r rm product pm ad);
      Ok (mkdealing (fst e) (snd e) (PProduct pf))
    | SOther => Ok (mkdealing MNil CNil PNone)
    end.

(** dealings/transcript.go:11-23: dynamic types of the operation *)
Inductive operation :=
| TRandom
| TReshareUnmasked (p : commitment)
| TReshareMasked (p : commitment)
| TTimes (l r : commitment)
| TOther.

(** dealings/dealings.go:121-187 PubliclyVerify *)
Definition publicly_verify (d : dealing) (op : operation) (threshold dealer receivers : Z) (ad : bytes) : res unit :=
  do n <- c_len (d_cm d);
  if negb (n =? threshold) then Err
  else
    do _ <- c_curve (d_cm d);
    do _ <- m_check_validity (d_ct d) receivers ad dealer;
    match op, d_proof d with
    | TRandom, PNone =>
      do _ <- c_verify_is (d_cm d) ct_pedersen;
      m_verify_is (d_ct d) MTpair
    | TReshareMasked p, PMasked pf =>
      do _ <- c_verify_is (d_cm d) ct_simple;
      do _ <- m_verify_is (d_ct d) MTsingle;
      do e <- c_eval p dealer;
      do k <- c_constant_term (d_cm d);
      eqo_verify pf e k ad
    | TReshareUnmasked p, PNone =>
      do _ <- c_verify_is (d_cm d) ct_simple;
      do _ <- c_verify_is p ct_simple;
      do _ <- m_verify_is (d_ct d) MTsingle;
      match p with
      | CPedersen _ => Err
      | CSimple l =>
        do e <- eval_points l dealer;
        do k <- c_constant_term (d_cm d);
        guard (geqb e k)
      | _ => Ok tt
      end
    | TTimes _ _, PNone => Panic      (* dealing.Proof.Type() on nil, line 167 *)
    | TTimes l r, PProduct pf =>
      do _ <- c_verify_is (d_cm d) ct_pedersen;
      do _ <- m_verify_is (d_ct d) MTpair;
      do _ <- c_verify_is l ct_simple;
      do _ <- c_verify_is r ct_pedersen;
      do el <- c_eval l dealer;
      do er <- c_eval r dealer;
      do k <- c_constant_term (d_cm d);
      prod_verify pf el er k ad
    | _, _ => Err
    end.

(** dealings/dealings.go:189-195 PrivateVerify *)
Definition private_verify (d : dealing) (sk : Fq) (pk : G) (ad : bytes) (dealer recipient : Z) : res unit :=
  do _ <- c_constant_term (d_cm d);
  do _ <- m_decrypt_and_check (d_ct d) (d_cm d) ad dealer recipient sk pk;
  Ok tt.

(** ** Transcripts.  A btree.Map[NodeIndex, V] is the list of its entries in
    ascending key order. *)

(** Go make([]T, n); as at dealings/transcript.go:37, 71 and sign/combined_sig.go:26-28: a negative size panics *)
Definition go_make (n : Z) : res nat := if n <? 0 then Panic else Ok (Z.to_nat n).

(** dealings/transcript.go:25-57 CombineCommitmentsViaInterpolation *)
Definition combine_interp (ty : Z) (threshold : Z) (ds : list (Z * dealing)) : res commitment :=
  do cms <- mapM (fun kd => c_points (d_cm (snd kd))) ds;
  do cs <- lagrange_at_zero (map fst ds);
  do n <- go_make threshold;
  do pts <- mapM (fun i => do vals <- mapM (fun l => nth_or_panic l i) cms; interpolate_point cs vals) (seq 0 n);
  Ok (CInterp (if ty =? ct_simple then CSimple pts else if ty =? ct_pedersen then CPedersen pts else CNil)).

(** dealings/transcript.go:70-83: summation, one dealing after the other *)
Fixpoint sum_points (acc pts : list G) : res (list G) :=
  match acc, pts with
  | [], _ => Ok []
  | a :: acc, p :: pts => do r <- sum_points acc pts; Ok (gadd a p :: r)
  | _ :: _, [] => Panic
  end.
(** dealings/transcript.go:70-83 *)
Fixpoint sum_dealings (acc : list G) (ds : list (Z * dealing)) : res (list G) :=
  match ds with
  | [] => Ok acc
  | (_, d) :: ds =>
    do t <- c_type (d_cm d);
    if negb (t =? ct_pedersen) then Err
    else do l <- c_points (d_cm d); do acc <- sum_points acc l; sum_dealings acc ds
  end.

(** dealings/transcript.go:59-123 NewTranscriptInternal *)
Fixpoint check_lengths (ds : list (Z * dealing)) (threshold : Z) : res unit :=
  match ds with
  | [] => Ok tt
  | (_, d) :: ds =>
    do n <- c_len (d_cm d); if negb (n =? threshold) then Err else check_lengths ds threshold
  end.
(** dealings/transcript.go:59-123 NewTranscriptInternal *)
Definition new_transcript (threshold : Z) (ds : list (Z * dealing)) (op : operation) : res transcript :=
  do _ <- check_lengths ds threshold;
  match op with
  | TRandom =>
    do n <- go_make threshold;
    do l <- sum_dealings (repeat gzero n) ds;
    Ok (mktranscript (CSum (CPedersen l)))
  | TReshareMasked p =>
    do t <- c_type p;
    if negb (t =? ct_pedersen) then Err
    else
      do n <- c_len p;
      if Z.of_nat (List.length ds) <? n then Err
      else do c <- combine_interp ct_simple threshold ds; Ok (mktranscript c)
  | TReshareUnmasked p =>
    do t <- c_type p;
    if negb (t =? ct_simple) then Err
    else
      do n <- c_len p;
      if Z.of_nat (List.length ds) <? n then Err
      else
        do c <- combine_interp ct_simple threshold ds;
        do a <- c_constant_term p;
        do b <- c_constant_term c;
        if geqb a b then Ok (mktranscript c) else Err
  | TTimes l r =>
    do tl <- c_type l;
    if negb (tl =? ct_simple) then Err
    else
      do tr <- c_type r;
      if negb (tr =? ct_pedersen) then Err
      else
        do nl <- c_len l; do nr <- c_len r;
        if Z.of_nat (List.length ds) <? nl + nr - 1 then Err
        else do c <- combine_interp ct_pedersen threshold ds; Ok (mktranscript c)
  | TOther => Ok (mktranscript CNil)
  end.

(** ** dealings/transcript.go:138-208 ReconstructShareFromOpenings *)
(** the Scan at 151-161: pointer-typed and nil openings match no case and are skipped; dealings/transcript.go:151-161 *)
Fixpoint collect_simple (os : list (Z * opening)) : res (list (Z * Fq)) :=
  match os with
  | [] => Ok []
  | (i, o) :: os =>
    match o with
    | OSimple v => do r <- collect_simple os; Ok ((i, v) :: r)
    | OPedersen _ _ => Err
    | _ => collect_simple os
    end
  end.
(** the Scan at 178-189; dealings/transcript.go:178-189 *)
Fixpoint collect_pedersen (os : list (Z * opening)) : res (list (Z * (Fq * Fq))) :=
  match os with
  | [] => Ok []
  | (i, o) :: os =>
    match o with
    | OPedersen v m => do r <- collect_pedersen os; Ok ((i, (v, m)) :: r)
    | OSimple _ => Err
    | _ => collect_pedersen os
    end
  end.
(** dealings/transcript.go:138-208 ReconstructShareFromOpenings *)
Definition reconstruct_share (d : dealing) (os : list (Z * opening)) (ix : Z) : res opening :=
  do n <- c_len (d_cm d);
  if Z.of_nat (List.length os) <? n then Err
  else
    do _ <- c_curve (d_cm d);
    let x := from_node_index ix in
    do o <- match d_cm d with
            | CSimple _ =>
              do vs <- collect_simple os;
              do cs <- lagrange_at_value x (map fst vs);
              do v <- interpolate_scalar cs (map snd vs);
              Ok (OSimple v)
            | CPedersen _ =>
              do vs <- collect_pedersen os;
              do cs <- lagrange_at_value x (map fst vs);
              do v <- interpolate_scalar cs (map (fun e => fst (snd e)) vs);
              do m <- interpolate_scalar cs (map (fun e => snd (snd e)) vs);
              Ok (OPedersen v m)
            | _ => Ok ONil
            end;
    c_return_if_consistent (d_cm d) ix o.

(** ** dealings/commitment.go *)
(** dealings/commitment.go:19-22 OpenDealing *)
Definition open_dealing (d : dealing) (ad : bytes) (dealer opener : Z) (sk : Fq) (pk : G) : res opening :=
  m_decrypt_and_check (d_ct d) (d_cm d) ad dealer opener sk pk.

(** dealings/commitment.go:76-84 *)
Fixpoint sum_pedersen (os : list opening) (v m : Fq) : res opening :=
  match os with
  | [] => Ok (OPedersen v m)
  | OPedersen v' m' :: os => sum_pedersen os (fadd v v') (fadd m m')
  | _ => Err
  end.
(** dealings/commitment.go:91-100 and 116-126: index and opening lists are
    walked together (an index list shorter than the openings is a bounds
    panic); every opening must have the value type *)
Fixpoint zip_simple (ixs : list Z) (os : list opening) : res (list (Z * Fq)) :=
  match os with
  | [] => Ok []
  | o :: os =>
    match ixs with
    | [] => Panic
    | x :: ixs => match o with OSimple v => do r <- zip_simple ixs os; Ok ((x, v) :: r) | _ => Err end
    end
  end.
(** dealings/commitment.go:116-126 *)
Fixpoint zip_pedersen (ixs : list Z) (os : list opening) : res (list (Z * (Fq * Fq))) :=
  match os with
  | [] => Ok []
  | o :: os =>
    match ixs with
    | [] => Panic
    | x :: ixs => match o with OPedersen v m => do r <- zip_pedersen ixs os; Ok ((x, (v, m)) :: r) | _ => Err end
    end
  end.
(** dealings/commitment.go:69-143 CombineOpenings *)
Definition combine_openings (ixs : list Z) (os : list opening) (tc : commitment) (receiver : Z) : res opening :=
  do o <- match tc with
          | CSum _ => sum_pedersen os fzero fzero
          | CInterp c =>
            match c with
            | CSimple _ =>
              do vs <- zip_simple ixs os;
              do cs <- lagrange_at_zero (map fst vs);
              do v <- interpolate_scalar cs (map snd vs);
              Ok (OSimple v)
            | CPedersen _ =>
              do vs <- zip_pedersen ixs os;
              do cs <- lagrange_at_zero (map fst vs);
              do v <- interpolate_scalar cs (map (fun e => fst (snd e)) vs);
              do m <- interpolate_scalar cs (map (fun e => snd (snd e)) vs);
              Ok (OPedersen v m)
            | _ => Ok ONil
            end
          | _ => Ok ONil
          end;
  c_return_if_consistent tc receiver o.

(** dealings/commitment.go:48-67 FromDealings *)
Definition from_dealings (ds : list (Z * dealing)) (tc : commitment) (ad : bytes) (receiver : Z) (sk : Fq) (pk : G)
  : res opening :=
  do os <- mapM (fun kd => m_decrypt_and_check (d_ct (snd kd)) (d_cm (snd kd)) ad (fst kd) receiver sk pk) ds;
  combine_openings (map fst ds) os tc receiver.

(** btree Get; as used at dealings/commitment.go:23-47 *)
Fixpoint zlookup {A} (k : Z) (l : list (Z * A)) : option A :=
  match l with [] => None | (i, a) :: l => if k =? i then Some a else zlookup k l end.
(** dealings/commitment.go:23-47 FromDealingsAndOpenings *)
Definition from_dealings_and_openings (ds : list (Z * dealing)) (provided : list (Z * list (Z * opening)))
  (tc : commitment) (ad : bytes) (receiver : Z) (sk : Fq) (pk : G) : res opening :=
  do os <- mapM (fun kd =>
      match zlookup (fst kd) provided with
      | Some shares => reconstruct_share (snd kd) shares receiver
      | None => m_decrypt_and_check (d_ct (snd kd)) (d_cm (snd kd)) ad (fst kd) receiver sk pk
      end) ds;
  combine_openings (map fst ds) os tc receiver.
End Dealing.
