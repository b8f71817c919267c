(** The curve number as a parameter: curve/types.go and every function that
    takes an EccCurveType from its caller.  The other model files fix the
    number to K256 = 1; here it is any integer, and a value of interface type
    that the switch over curve numbers leaves unassigned is [None] (nil).
    Points and scalars themselves always belong to K256, the only curve with
    an implementation. *)
From Coq Require Import ZArith Lia Bool String List.
From Verif Require Import Base Zmod Fields ModelScalar ModelXmd ModelRo ModelPoly ModelGroup ModelCommit ModelZk ModelMega
  ModelDealing ModelKey ModelSign ModelSecp ModelH2C.
Import ListNotations.
Open Scope Z_scope.

(** ** curve/types.go *)

(** curve/types.go:9-16 FromTag (tag is a byte) *)
Definition from_tag (tag : Z) : Z := if tag =? 1 then 1 else 0.
(** curve/types.go:17-24 ScalarBits *)
Definition scalar_bits (c : Z) : Z := if c =? 1 then 256 else 0.
(** curve/types.go:25-27 ScalarBytes *)
Definition scalar_nbytes (c : Z) : Z := (scalar_bits c + 7) / 8.
(** curve/types.go:29-36 FieldBits *)
Definition field_bits (c : Z) : Z := if c =? 1 then 256 else 0.
(** curve/types.go:37-39 FieldBytes *)
Definition field_nbytes (c : Z) : Z := (field_bits c + 7) / 8.
(** curve/types.go:41-48 SecurityLevel *)
Definition security_level (c : Z) : Z := if c =? 1 then 128 else 0.
(** curve/types.go:50-52 PointBytes *)
Definition point_nbytes (c : Z) : Z := 1 + field_nbytes c.
(** curve/types.go:54-61 Tag *)
Definition curve_tag (c : Z) : Z := if c =? 1 then 1 else 0.
(** curve/types.go:63-70 String *)
Definition curve_name (c : Z) : bytes := if c =? 1 then str "secp256k1" else [].

(** ** curve/scalar.go *)

(** curve/scalar.go:83-90 Zero *)
Definition zero_on (c : Z) : option Fq := if c =? 1 then Some fzero else None.
(** curve/scalar.go:92-99 One *)
Definition one_on (c : Z) : option Fq := if c =? 1 then Some fone else None.
(** curve/scalar.go:126-133 FromUint64 *)
Definition from_uint64_on (c n : Z) : option Fq := if c =? 1 then Some (scalar_from_uint64 n) else None.
(** curve/scalar.go:135-137 FromNodeIndex *)
Definition from_node_index_on (c i : Z) : option Fq := from_uint64_on c (u64 (u64 i + 1)).
(** curve/scalar.go:73-81 FromBytesWide: the error is always nil *)
Definition from_bytes_wide_on (c : Z) (b : bytes) : res (option Fq) :=
  if c =? 1 then do s <- k256_from_wide_bytes b; Ok (Some s) else Ok None.

(** a method called on an interface value: nil panics; the rule for any call
    through EccScalar, EccPoint or EccFieldElement, e.g. sign/share.go:26 *)
Definition recv {A} (o : option A) : res A := match o with Some a => Ok a | None => Panic end.
(** all of a list of interface values are non-nil; needed where
    dealings/transcript.go:71-74 and poly/poly.go:35-44 store them *)
Fixpoint all_some {A} (l : list (option A)) : option (list A) :=
  match l with
  | [] => Some []
  | Some a :: l => match all_some l with Some r => Some (a :: r) | None => None end
  | None :: _ => None
  end.

Section Scalars.
Context {X : Oracles}.

(** curve/scalar.go:101-109 Random.  The buffer has ScalarBytes() bytes; the
    loop ends when Deserialize reports no error, whatever it returned. *)
Fixpoint random_loop_on (fuel : nat) (c : Z) (r : rng) (buf : bytes) : res (option Fq * rng) :=
  match fuel with
  | O => Diverge
  | S fuel =>
    let '(buf, r) := fill_uint8 r buf in
    match scalar_deserialize c buf with
    | Ok o => Ok (o, r)
    | _ => random_loop_on fuel c r buf
    end
  end.
(** curve/scalar.go:101-109 Random *)
Definition random_scalar_on (c : Z) (r : rng) : res (option Fq * rng) :=
  random_loop_on rand_fuel c r (repeat 0 (Z.to_nat (scalar_nbytes c))).
(** curve/scalar.go:111-114 FromSeed *)
Definition scalar_from_seed_on (c : Z) (s : bytes) : res (option Fq) :=
  do r <- seed_rng s; do x <- random_scalar_on c r; Ok (fst x).

(** curve/hash_to_curve.go:124-142 HashToScalar.  The output of
    ExpandMessageXmd has the requested length (C13), so the slices are in
    range; make with a negative capacity panics. *)
Definition hash_to_scalar_on (count c : Z) (input dst : bytes) : res (list (option Fq)) :=
  let len := (scalar_bits c + security_level c + 7) / 8 in
  do u <- expand_message_xmd input dst (count * len);
  if count <? 0 then Panic
  else mapM (fun i => from_bytes_wide_on c (firstn (Z.to_nat len) (skipn (Z.to_nat len * i) u))) (seq 0 (Z.to_nat count)).
(** curve/scalar.go:34-40 HashToScalar (the method): the first of one scalar;
    lines 42-44 HashToSeveralScalar only pass the arguments on *)
Definition hash_to_one_scalar_on (c : Z) (input dst : bytes) : res (option Fq) :=
  do l <- hash_to_scalar_on 1 c input dst; match l with s :: _ => Ok s | [] => Panic end.
(** ro/ro.go:103-109 OutputScalars: the curve's String is part of the domain
    separator *)
Definition output_scalars_on (c : Z) (r : ro) (cnt : Z) : res (list (option Fq)) :=
  do i <- ro_form r; hash_to_scalar_on cnt c i (ro_dst r ++ str "-" ++ curve_name c).
(** ro/ro.go:95-101 OutputScalar *)
Definition output_scalar_on (c : Z) (r : ro) : res (option Fq) :=
  do l <- output_scalars_on c r 1; match l with s :: _ => Ok s | [] => Panic end.

(** poly/poly.go:37-39: [n] coefficients drawn one after the other *)
Fixpoint random_scalars_on (n : nat) (c : Z) (r : rng) : res (list (option Fq) * rng) :=
  match n with
  | O => Ok ([], r)
  | S n => do s <- random_scalar_on c r; let '(s, r) := s in
           do l <- random_scalars_on n c r; let '(l, r) := l in Ok (s :: l, r)
  end.
(** poly/poly.go:35-44 Random; make with a negative length panics *)
Definition poly_random_on (c num : Z) (r : rng) : res (list (option Fq) * rng) :=
  if num <? 0 then Panic else random_scalars_on (Z.to_nat num) c r.

(** ** curve/fe.go, curve/hash_to_curve.go and curve/point.go *)

(** curve/fe.go:31-39 Zero *)
Definition fe_zero_on (c : Z) : option Fp := if c =? 1 then Some fzero else None.
(** curve/fe.go:41-48 One *)
Definition fe_one_on (c : Z) : option Fp := if c =? 1 then Some fone else None.
(** curve/fe.go:50-57 A, curve/k256_fe.go:70-72 FieldA *)
Definition fe_a_on (c : Z) : option Fp := if c =? 1 then Some (fp_of_big 0) else None.
(** curve/fe.go:59-66 B, curve/k256_fe.go:73-75 FieldB *)
Definition fe_b_on (c : Z) : option Fp := if c =? 1 then Some (fp_of_big 7) else None.
(** curve/fe.go:68-75 SswuA *)
Definition fe_sswu_a_on (c : Z) : option Fp := if c =? 1 then Some sswu_a else None.
(** curve/fe.go:77-85 SswuB *)
Definition fe_sswu_b_on (c : Z) : option Fp := if c =? 1 then Some sswu_b else None.
(** curve/fe.go:87-95 SswuZ *)
Definition fe_sswu_z_on (c : Z) : option Fp := if c =? 1 then Some sswu_z else None.
(** curve/fe.go:97-105 SswuC2 *)
Definition fe_sswu_c2_on (c : Z) : option Fp := if c =? 1 then Some sswu_c2 else None.
(** curve/fe.go:107-113 FromBytes; beside an error the element returned is a
    nil pointer in a non-nil interface value, which is not represented *)
Definition fe_from_bytes_on (c : Z) (b : bytes) : res (option Fp) :=
  if c =? 1 then do x <- fe_from_bytes b; Ok (Some x) else Ok None.
(** curve/fe.go:115-122 FromBytesWide *)
Definition fe_wide_on (c : Z) (b : bytes) : option Fp := if c =? 1 then Some (fe_from_bytes_wide b) else None.
(** curve/hash_to_curve.go:104-122 HashToField *)
Definition hash_to_field_on (count : nat) (c : Z) (input dst : bytes) : res (list (option Fp)) :=
  let len := (field_bits c + security_level c + 7) / 8 in
  do u <- expand_message_xmd input dst (Z.of_nat count * len);
  mapM (fun i => do b <- slice u (Z.of_nat i * len) ((Z.of_nat i + 1) * len); Ok (fe_wide_on c b)) (seq 0 count).
(** curve/hash_to_curve.go:90-102 MapToCurve: u.CurveType() (line 49) on a nil
    element panics *)
Definition map_to_curve_on (u : option Fp) : res (option pt) := do u <- recv u; map_to_curve u.
(** curve/hash_to_curve.go:144-159 HashToCurveRo *)
Definition hash_to_curve_ro_on (c : Z) (input dst : bytes) : res pt :=
  do u <- hash_to_field_on 2 c input dst;
  do q0 <- map_to_curve_on (nth 0 u None);
  do q1 <- map_to_curve_on (nth 1 u None);
  do q0 <- recv q0; do q1 <- recv q1;
  Ok (pt_add q0 q1).
(** curve/point.go:33-40 Identity *)
Definition identity_on (c : Z) : option pt := if c =? 1 then Some None else None.
(** curve/point.go:42-49 GeneratorG *)
Definition generator_g_on (c : Z) : option pt := if c =? 1 then Some pt_gen else None.
(** curve/point.go:51-62 GeneratorH: h stays nil for another curve number *)
Definition generator_h_on (c : Z) : res (option pt) :=
  let h := if c =? 1 then be_bytes 33 0x037bdcfc024cf697a41fd3cda2436c843af5669e50042be3314a532d5b70572f59 else [] in
  match point_deserialize c h with Err => Panic | r => r end.

(** mega/key.go:14-19 GenKeypair with 71-73 PublicKey, 78-83
    GeneratePrivateKey; MulByG asks a nil scalar for its curve *)
Definition gen_keypair_on (c : Z) (seed : bytes) : res (pt * Fq) :=
  do r <- seed_rng seed;
  do x <- random_scalar_on c r;
  do s <- recv (fst x);
  Ok (pt_mul s pt_gen, s).
End Scalars.

(** poly/lagrange.go:88-140 AtValue with a possibly nil value; a non-nil one is
    of curve K256 *)
Definition at_value_on (v : option Fq) (samples : list Z) : res (list Fq) :=
  match samples with
  | [] => Err
  | _ => do v <- recv v; lagrange_at_value v samples
  end.
(** poly/lagrange.go:84-86 AtZero *)
Definition at_zero_on (c : Z) (samples : list Z) : res (list Fq) := at_value_on (zero_on c) samples.

Section Protocol.
Context {X : Oracles} {GO : Grp}.

(** ** dealings *)

(** curve/point.go:33-40 Identity, for the points of the protocol layers *)
Definition gzero_on (c : Z) : option G := if c =? 1 then Some gzero else None.
(** curve/point.go:42-49 GeneratorG, for the points of the protocol layers *)
Definition genG_on (c : Z) : option G := if c =? 1 then Some genG else None.

(** dealings/dealings.go:60-120 NewIDkgDealingInternal.  Only the first and the
    last kind of shares use the curve number; the others take it from the
    shared scalars.  Line 76 and lines 105-110 hand the drawn scalars on, which
    panics on a nil one. *)
Definition new_dealing_on (c : Z) (sh : shares) (seed : bytes) (threshold : Z) (rc : list G) (dealer : Z) (ad : bytes)
  : res dealing :=
  if (threshold =? 0) || (Z.of_nat (List.length rc) <? threshold) then Err
  else
    do s1 <- seed_derive seed poly_dst;
    do rn <- seed_rng s1;
    do ms <- seed_derive seed mega_dst;
    match sh with
    | SRandom =>
      do v <- poly_random_on c threshold rn; let '(v, rn) := v in
      do m <- poly_random_on c threshold rn; let '(m, rn) := m in
      do v <- recv (all_some v); do m <- recv (all_some m);
      do e <- encrypt_and_commit_pair v m threshold rc dealer ad ms;
      Ok (mkdealing (fst e) (snd e) PNone)
    | STimes l r rm =>
      let product := fmul l r in
      do pm <- random_scalar_on c rn; let '(pm, rn) := pm in
      do v <- poly_random_with_constant product threshold rn; let '(v, rn) := v in
      do pm <- recv pm;
      do m <- or_panic (poly_random_with_constant pm threshold rn); let '(m, rn) := m in
      do e <- encrypt_and_commit_pair v m threshold rc dealer ad ms;
      do ps <- seed_derive seed prod_dst;
      do pf <- or_panic (prod_create ps l r rm product pm ad);
      Ok (mkdealing (fst e) (snd e) (PProduct pf))
    | _ => new_dealing sh seed threshold rc dealer ad
    end.

(** poly/commitment.go:227-235, 350-358 VerifyIs with its curve argument *)
Definition c_verify_is_on (c : Z) (cm : commitment) (ty : Z) : res unit :=
  do _ <- c_curve cm; if negb (1 =? c) then Err else do t <- c_type cm; guard (t =? ty).
(** mega/ciphertext.go:181-194, 316-329 VerifyIs with its curve argument *)
Definition m_verify_is_on (c : Z) (m : ciphertext) (t : mtype) : res unit :=
  match m with
  | MSingle _ _ _ _ => if negb (1 =? c) then Err else guard (mtype_eqb MTsingle t)
  | MPair _ _ _ _ => if negb (1 =? c) then Err else guard (mtype_eqb MTpair t)
  | MNil => Panic
  end.
(** dealings/dealings.go:121-187 PubliclyVerify *)
Definition publicly_verify_on (c : Z) (d : dealing) (op : operation) (threshold dealer receivers : Z) (ad : bytes) : res unit :=
  do n <- c_len (d_cm d);
  if negb (n =? threshold) then Err
  else
    do _ <- c_curve (d_cm d);
    if negb (1 =? c) then Err
    else
    do _ <- m_check_validity (d_ct d) receivers ad dealer;
    match op, d_proof d with
    | TRandom, PNone =>
      do _ <- c_verify_is_on c (d_cm d) ct_pedersen;
      m_verify_is_on c (d_ct d) MTpair
    | TReshareMasked p, PMasked pf =>
      do _ <- c_verify_is_on c (d_cm d) ct_simple;
      do _ <- m_verify_is_on c (d_ct d) MTsingle;
      do e <- c_eval p dealer;
      do k <- c_constant_term (d_cm d);
      eqo_verify pf e k ad
    | TReshareUnmasked p, PNone =>
      do _ <- c_verify_is_on c (d_cm d) ct_simple;
      do _ <- c_verify_is_on c p ct_simple;
      do _ <- m_verify_is_on c (d_ct d) MTsingle;
      match p with
      | CPedersen _ => Err
      | CSimple l =>
        do e <- eval_points l dealer;
        do k <- c_constant_term (d_cm d);
        guard (geqb e k)
      | _ => Ok tt
      end
    | TTimes _ _, PNone => Panic
    | TTimes l r, PProduct pf =>
      do _ <- c_verify_is_on c (d_cm d) ct_pedersen;
      do _ <- m_verify_is_on c (d_ct d) MTpair;
      do _ <- c_verify_is_on c l ct_simple;
      do _ <- c_verify_is_on c r ct_pedersen;
      do el <- c_eval l dealer;
      do er <- c_eval r dealer;
      do k <- c_constant_term (d_cm d);
      prod_verify pf el er k ad
    | _, _ => Err
    end.
(** dealings/dealings.go:189-195 PrivateVerify: the key's curve is looked at
    before the commitment is touched *)
Definition private_verify_on (c : Z) (d : dealing) (sk : Fq) (pk : G) (ad : bytes) (dealer recipient : Z) : res unit :=
  if negb (1 =? c) then Err
  else
    do _ <- c_constant_term (d_cm d);
    do _ <- m_decrypt_and_check (d_ct d) (d_cm d) ad dealer recipient sk pk;
    Ok tt.

(** dealings/transcript.go:25-57 CombineCommitmentsViaInterpolation *)
Definition combine_interp_on (c ty threshold : Z) (ds : list (Z * dealing)) : res commitment :=
  do cms <- mapM (fun kd => c_points (d_cm (snd kd))) ds;
  do cs <- at_zero_on c (map fst ds);
  do n <- go_make threshold;
  do pts <- mapM (fun i => do vals <- mapM (fun l => nth_or_panic l i) cms; interpolate_point cs vals) (seq 0 n);
  Ok (CInterp (if ty =? ct_simple then CSimple pts else if ty =? ct_pedersen then CPedersen pts else CNil)).
(** dealings/transcript.go:80-82: AddPoints is called on the accumulated point *)
Fixpoint sum_points_on (acc : list (option G)) (pts : list G) : res (list (option G)) :=
  match acc, pts with
  | [], _ => Ok []
  | Some a :: acc, p :: pts => do r <- sum_points_on acc pts; Ok (Some (gadd a p) :: r)
  | _ :: _, _ => Panic
  end.
(** dealings/transcript.go:75-83 *)
Fixpoint sum_dealings_on (acc : list (option G)) (ds : list (Z * dealing)) : res (list (option G)) :=
  match ds with
  | [] => Ok acc
  | (_, d) :: ds =>
    do t <- c_type (d_cm d);
    if negb (t =? ct_pedersen) then Err
    else do l <- c_points (d_cm d); do acc <- sum_points_on acc l; sum_dealings_on acc ds
  end.
(** dealings/commitment.go:74-84: Add is called on the accumulated scalars *)
Fixpoint sum_pedersen_on (os : list opening) (v m : option Fq) : res (option Fq * option Fq) :=
  match os with
  | [] => Ok (v, m)
  | OPedersen v' m' :: os =>
    do v <- recv v; do m <- recv m; sum_pedersen_on os (Some (fadd v v')) (Some (fadd m m'))
  | _ => Err
  end.
(** dealings/commitment.go:69-143 CombineOpenings.  ReturnOpeningIfConsistent
    with nil scalars evaluates the commitment and then asks the first scalar
    for its curve (poly/commitment.go:371-374, curve/point.go:89-93). *)
Definition combine_openings_on (c : Z) (ixs : list Z) (os : list opening) (tc : commitment) (receiver : Z) : res opening :=
  match tc with
  | CSum _ =>
    do vm <- sum_pedersen_on os (zero_on c) (zero_on c);
    match vm with
    | (Some v, Some m) => c_return_if_consistent tc receiver (OPedersen v m)
    | _ => Panic
    end
  | CInterp (CSimple _) =>
    do vs <- zip_simple ixs os;
    do cs <- at_zero_on c (map fst vs);
    do v <- interpolate_scalar cs (map snd vs);
    c_return_if_consistent tc receiver (OSimple v)
  | CInterp (CPedersen _) =>
    do vs <- zip_pedersen ixs os;
    do cs <- at_zero_on c (map fst vs);
    do v <- interpolate_scalar cs (map (fun e => fst (snd e)) vs);
    do m <- interpolate_scalar cs (map (fun e => snd (snd e)) vs);
    c_return_if_consistent tc receiver (OPedersen v m)
  | _ => c_return_if_consistent tc receiver ONil
  end.
(** what NewTranscriptInternal returned, dealings/transcript.go:59-123: a transcript, or one whose points are
    nil interface values (their number) *)
Inductive transcript_on := TrPoints (t : transcript) | TrNils (n : nat).
(** dealings/transcript.go:59-123 NewTranscriptInternal *)
Definition new_transcript_on (c threshold : Z) (ds : list (Z * dealing)) (op : operation) : res transcript_on :=
  do _ <- check_lengths ds threshold;
  match op with
  | TRandom =>
    do n <- go_make threshold;
    do l <- sum_dealings_on (repeat (gzero_on c) n) ds;
    Ok (match all_some l with Some l => TrPoints (mktranscript (CSum (CPedersen l))) | None => TrNils (List.length l) end)
  | TReshareMasked p =>
    do t <- c_type p;
    if negb (t =? ct_pedersen) then Err
    else
      do n <- c_len p;
      if Z.of_nat (List.length ds) <? n then Err
      else do cm <- combine_interp_on c ct_simple threshold ds; Ok (TrPoints (mktranscript cm))
  | TReshareUnmasked p =>
    do t <- c_type p;
    if negb (t =? ct_simple) then Err
    else
      do n <- c_len p;
      if Z.of_nat (List.length ds) <? n then Err
      else
        do cm <- combine_interp_on c ct_simple threshold ds;
        do a <- c_constant_term p;
        do b <- c_constant_term cm;
        if geqb a b then Ok (TrPoints (mktranscript cm)) else Err
  | TTimes l r =>
    do tl <- c_type l;
    if negb (tl =? ct_simple) then Err
    else
      do tr <- c_type r;
      if negb (tr =? ct_pedersen) then Err
      else
        do nl <- c_len l; do nr <- c_len r;
        if Z.of_nat (List.length ds) <? nl + nr - 1 then Err
        else do cm <- combine_interp_on c ct_pedersen threshold ds; Ok (TrPoints (mktranscript cm))
  | TOther => Ok (TrPoints (mktranscript CNil))
  end.

(** ** sign *)

(** sign/sign.go:17-19 ConvertHashToInteger *)
Definition hash_to_integer_on (c : Z) (h : bytes) : res (option Fq) := from_bytes_wide_on c h.
(** sign/sign.go:21-47 DeriveRho; line 41 calls ScalarMul on the generator *)
Definition derive_rho_on (c : Z) (hashed randomness : bytes) (pa : path) (key presig : transcript) : res rho_out :=
  do ps <- presig_point presig;
  do kt <- tr_constant_term key;
  do t <- derive_tweak pa kt;
  let tweak := fst t in
  do rz <- output_scalar_on c (rho_ro hashed randomness ps tweak);
  do g <- recv (genG_on c);
  do rz <- recv rz;
  let rp := gadd ps (smul rz g) in
  do rho <- ecdsa_conversion rp;
  Ok (mkrho rho tweak rz rp).
(** sign/share.go:17-54 NewThresholdEcdsaSigShareInternal *)
Definition new_share_on (c : Z) (pa : path) (hashed randomness : bytes) (key presig : transcript)
  (lambda kappa_lambda key_lambda : opening) : res sig_share :=
  do r <- derive_rho_on c hashed randomness pa key presig;
  do e <- hash_to_integer_on c hashed;
  do e <- recv e;
  let theta := fadd e (fmul (ro_rho r) (ro_tweak r)) in
  do nu <- match key_lambda with
           | OPedersen kv km =>
             match lambda_parts lambda with
             | Some (lv, lm) =>
               Ok (OPedersen (fadd (fmul theta lv) (fmul (ro_rho r) kv)) (fadd (fmul theta lm) (fmul (ro_rho r) km)))
             | None => Panic
             end
           | _ => Ok ONil
           end;
  do mu <- match kappa_lambda with
           | OPedersen kv km =>
             match lambda_parts lambda with
             | Some (lv, lm) =>
               Ok (OPedersen (fadd (fmul (ro_randomizer r) lv) kv) (fadd (fmul (ro_randomizer r) lm) km))
             | None => Panic
             end
           | _ => Ok ONil
           end;
  Ok (mkshare nu mu).
(** sign/share.go:56-86 Verify *)
Definition share_verify_on (c : Z) (s : sig_share) (pa : path) (hashed randomness : bytes) (signer : Z)
  (key presig lambda kappa_lambda key_lambda : transcript) : res unit :=
  do r <- derive_rho_on c hashed randomness pa key presig;
  do e <- hash_to_integer_on c hashed;
  do e <- recv e;
  let theta := fadd e (fmul (ro_rho r) (ro_tweak r)) in
  do lj <- tr_eval lambda signer;
  do klj <- tr_eval kappa_lambda signer;
  do xlj <- tr_eval key_lambda signer;
  let num := gadd (smul theta lj) (smul (ro_rho r) klj) in
  let den := gadd (smul (ro_randomizer r) lj) klj in
  do _ <- match ss_num s with
          | OPedersenPtr v m => guard (geqb num (pedersen v m))
          | _ => Ok tt
          end;
  match ss_den s with
  | OPedersenPtr v m => guard (geqb num (pedersen v m))
  | _ => Ok tt
  end.
(** sign/combined_sig.go:18-66 NewThresholdEcdsaCombinedSigInternal *)
Definition combine_sig_on (c : Z) (pa : path) (hashed randomness : bytes) (key presig : transcript) (threshold : Z)
  (shares : list (Z * sig_share)) : res signature :=
  if Z.of_nat (List.length shares) <? threshold then Err
  else
    do r <- derive_rho_on c hashed randomness pa key presig;
    do _ <- go_make threshold;
    let taken := if threshold <=? 0 then [] else shares in
    do cs <- at_zero_on c (map fst taken);
    do num <- interpolate_scalar cs (flat_map (fun e => num_sample (snd e)) taken);
    do den <- interpolate_scalar cs (flat_map (fun e => den_sample (snd e)) taken);
    let sigma := fmul num (finv den) in
    Ok (mksig (ro_rho r) (if is_high sigma then fneg sigma else sigma)).
(** sign/combined_sig.go:68-98 Verify; msg.Clone() at line 88 and MulPoints on
    the generator at line 90 *)
Definition sig_verify_on (c : Z) (t : signature) (pa : path) (hashed randomness : bytes) (key presig : transcript) : res unit :=
  if feqb (sg_r t) fzero || feqb (sg_s t) fzero then Err
  else
    do msg <- hash_to_integer_on c hashed;
    do r <- derive_rho_on c hashed randomness pa key presig;
    if negb (feqb (sg_r t) (ro_rho r)) || is_high (sg_s t) then Err
    else
      do mk <- tr_constant_term key;
      let pk := gadd (mul_by_g (ro_tweak r)) mk in
      let si := finv (sg_s t) in
      do msg <- recv msg;
      do g <- recv (genG_on c);
      let rp := mul_points g (fmul msg si) pk (fmul (sg_r t) si) in
      if is_infinity rp then Err
      else guard (feqb (affx rp) (affx (ro_presig r))).
End Protocol.
