(** Memory-level model, continued: zero-knowledge proofs, MEGa encryption,
    dealings, transcripts, combined openings, complaints and the corruption of
    dealings (zk/*.go, mega/*.go, dealings/*.go, complaints/complaints.go,
    testutils/test_utils.go) with explicit cells.  A proof, a ciphertext, a
    dealing or a complaint is an immutable record of pointers: no method of the
    code assigns a field of one after building it.  A public key is the pointer
    to its point, a private key the pointer to its scalar. *)
From Coq Require Import ZArith Lia Bool String List.
From Verif Require Import Base Zmod Fields ModelScalar ModelXmd ModelRo ModelPoly ModelGroup ModelCommit ModelZk ModelMega
  ModelDealing ModelComplaint ModelKey ModelSign ModelHeap ModelHeapSign.
Import ListNotations.
Open Scope Z_scope.

Section HeapDeal.
Context {X : Oracles} {GO : Grp}.

(** the result or the error of a call, for callers that carry on after an error; no Go counterpart: as the caller at complaints/complaints.go:25-36 *)
Definition hattempt {A} (m : M A) : M (option A) := fun h =>
  match m h with
  | (h', Ok a) => (h', Ok (Some a))
  | (h', Err) => (h', Ok None)
  | (h', Panic) => (h', Panic)
  | (h', Diverge) => (h', Diverge)
  end.
(** Go slice element; as hm[0] at mega/ciphertext.go:82 *)
Definition hnth {A} (l : list A) (i : nat) : M A := hlift (nth_or_panic l i).
(** Go slice index, as at mega/ciphertext.go:208 *)
Definition hindex {A} (l : list A) (i : Z) : M A := hlift (index l i).
(** no Go counterpart: return of an error unless the condition holds, as at mega/ciphertext.go:176-178 *)
Definition hguard (b : bool) : M unit := if b then hret tt else herr.

(** the idiom P.Clone().ScalarMul(P, s), e.g. zk/dlog.go:30 *)
Definition p_clone_mul (P s : ptr) : M ptr := let! c := p_clone P in p_scalar_mul c P s.
(** curve/scalar.go:101-109 Random: a new cell *)
Definition s_random (rn : rng) : M (ptr * rng) :=
  let! r := hlift (random_scalar rn) in
  let! p := s_new (fst r) in
  hret (p, snd r).

(** ** zk/dlog.go *)
(** zk/dlog.go:16-19 *)
Record hdlog := mkhdlog { hdl_challenge : ptr; hdl_response : ptr }.
(** zk/dlog.go:59-69 HashToChallenge; [er] says what becomes of its error *)
Definition h_dlog_challenge (er : res Fq -> res Fq) (g h gx hx c1 c2 : ptr) (ad : bytes) : M ptr :=
  let! gv := load_p g in let! hv := load_p h in let! gxv := load_p gx in let! hxv := load_p hx in
  let! c1v := load_p c1 in let! c2v := load_p c2 in
  let! c := hlift (er (dlog_challenge gv hv gxv hxv c1v c2v ad)) in
  s_new c.
(** zk/dlog.go:79-94 Create, 29-39 FromWitness *)
Definition h_dlog_create (seed : bytes) (x g h : ptr) (ad : bytes) : M hdlog :=
  let! gx := p_clone_mul g x in
  let! hx := p_clone_mul h x in
  let! rn := hlift (seed_rng seed) in
  let! r := s_random rn in
  let! rG := p_clone_mul g (fst r) in
  let! rH := p_clone_mul h (fst r) in
  let! challenge := h_dlog_challenge or_panic g h gx hx rG rH ad in
  let! response := s_clone x in
  let! response := s_mul response x challenge in
  let! response := s_add response response (fst r) in
  hret (mkhdlog challenge response).
(** zk/dlog.go:51-57 RecoverCommitments *)
Definition h_dlog_recover (g h gx hx : ptr) (pf : hdlog) : M (ptr * ptr) :=
  let! gz := p_clone_mul g (hdl_response pf) in
  let! hz := p_clone_mul h (hdl_response pf) in
  let! t := p_clone_mul gx (hdl_challenge pf) in
  let! gr := p_sub gz gz t in
  let! t := p_clone_mul hx (hdl_challenge pf) in
  let! hr := p_sub hz hz t in
  hret (gr, hr).
(** zk/dlog.go:104-121 Verify *)
Definition h_dlog_verify (pf : hdlog) (g h gx hx : ptr) (ad : bytes) : M unit :=
  let! r := h_dlog_recover g h gx hx pf in
  let! c := h_dlog_challenge (fun r => r) g h gx hx (fst r) (snd r) ad in
  let! b := s_equal c (hdl_challenge pf) in
  hguard b.
(** zk/dlog.go:127-132 Clone *)
Definition h_dlog_clone (pf : hdlog) : M hdlog :=
  let! c := s_clone (hdl_challenge pf) in
  let! r := s_clone (hdl_response pf) in
  hret (mkhdlog c r).

(** ** zk/equal_opening.go *)
(** zk/equal_opening.go:20-23 *)
Record heqo := mkheqo { heo_challenge : ptr; heo_response : ptr }.
(** zk/equal_opening.go:102-111 HashToChallenge *)
Definition h_eqo_challenge (g h a b c : ptr) (ad : bytes) : M ptr :=
  let! gv := load_p g in let! hv := load_p h in let! av := load_p a in let! bv := load_p b in
  let! cv := load_p c in
  let! e := hlift (eqo_challenge gv hv av bv cv ad) in
  s_new e.
(** zk/equal_opening.go:63-83 Create, 35-48 FromWitness *)
Definition h_eqo_create (seed : bytes) (secret masking : ptr) (ad : bytes) : M heqo :=
  let! g := p_new genG in
  let! h := p_new genH in
  let! a := p_pedersen secret masking in
  let! b := p_mul_by_g secret in
  let! rn := hlift (seed_rng seed) in
  let! r := s_random rn in
  let! rcom := p_clone_mul h (fst r) in
  let! challenge := h_eqo_challenge g h a b rcom ad in
  let! response := s_clone masking in
  let! response := s_mul response masking challenge in
  let! response := s_add response response (fst r) in
  hret (mkheqo challenge response).
(** zk/equal_opening.go:85-100 RecoverCommitments *)
Definition h_eqo_recover (h a b : ptr) (pf : heqo) : M ptr :=
  let! amb := p_clone a in
  let! amb := p_sub amb a b in
  let! camb := p_clone_mul amb (heo_challenge pf) in
  let! hc := p_clone_mul h (heo_response pf) in
  p_sub hc hc camb.
(** zk/equal_opening.go:113-124 Verify, 50-61 FromCommitments *)
Definition h_eqo_verify (pf : heqo) (ped simple : ptr) (ad : bytes) : M unit :=
  let! g := p_new genG in
  let! h := p_new genH in
  let! a := p_clone ped in
  let! b := p_clone simple in
  let! rcom := h_eqo_recover h a b pf in
  let! c := h_eqo_challenge g h a b rcom ad in
  let! e := s_equal (heo_challenge pf) c in
  hguard e.
(** zk/equal_opening.go:126-131 Clone *)
Definition h_eqo_clone (pf : heqo) : M heqo :=
  let! c := s_clone (heo_challenge pf) in
  let! r := s_clone (heo_response pf) in
  hret (mkheqo c r).

(** ** zk/product.go *)
(** zk/product.go:15-19 *)
Record hprod := mkhprod { hpr_challenge : ptr; hpr_response1 : ptr; hpr_response2 : ptr }.
(** zk/product.go:91-102 HashToChallenge *)
Definition h_prod_challenge (g h l r pr c1 c2 : ptr) (ad : bytes) : M ptr :=
  let! gv := load_p g in let! hv := load_p h in let! lv := load_p l in let! rv := load_p r in
  let! prv := load_p pr in let! c1v := load_p c1 in let! c2v := load_p c2 in
  let! e := hlift (prod_challenge gv hv lv rv prv c1v c2v ad) in
  s_new e.
(** zk/product.go:68-89 Create, 30-45 FromWitness *)
Definition h_prod_create (seed : bytes) (lhs rhs rhs_mask product product_mask : ptr) (ad : bytes) : M hprod :=
  let! g := p_new genG in
  let! h := p_new genH in
  let! lc := p_clone_mul g lhs in
  let! rc := p_mul_points g rhs h rhs_mask in
  let! pc := p_mul_points g product h product_mask in
  let! rn := hlift (seed_rng seed) in
  let! r1 := s_random rn in
  let! r1c := p_clone_mul g (fst r1) in
  let! r2 := s_random (snd r1) in
  let! r2c := p_mul_points rc (fst r1) h (fst r2) in
  let! challenge := h_prod_challenge g h lc rc pc r1c r2c ad in
  let! response1 := s_clone lhs in
  let! response1 := s_mul response1 lhs challenge in
  let! response1 := s_add response1 response1 (fst r1) in
  let! response2 := s_clone product_mask in
  let! t := s_clone lhs in
  let! t := s_mul t lhs rhs_mask in
  let! response2 := s_sub response2 product_mask t in
  let! response2 := s_mul response2 response2 challenge in
  let! response2 := s_add response2 response2 (fst r2) in
  hret (mkhprod challenge response1 response2).
(** zk/product.go:60-66 RecoverCommitment *)
Definition h_prod_recover (h l r pr : ptr) (pf : hprod) : M (ptr * ptr) :=
  let! r1 := p_mul_by_g (hpr_response1 pf) in
  let! t := p_clone_mul l (hpr_challenge pf) in
  let! r1 := p_sub r1 r1 t in
  let! r2 := p_mul_points r (hpr_response1 pf) h (hpr_response2 pf) in
  let! t := p_clone_mul pr (hpr_challenge pf) in
  let! r2 := p_sub r2 r2 t in
  hret (r1, r2).
(** zk/product.go:104-115 Verify, 47-59 FromCommitments *)
Definition h_prod_verify (pf : hprod) (l r pr : ptr) (ad : bytes) : M unit :=
  let! g := p_new genG in
  let! h := p_new genH in
  let! c := h_prod_recover h l r pr pf in
  let! e := h_prod_challenge g h l r pr (fst c) (snd c) ad in
  let! b := s_equal (hpr_challenge pf) e in
  hguard b.
(** zk/product.go:116-122 Clone: the scalars themselves are not cloned *)
Definition h_prod_clone (pf : hprod) : M hprod :=
  hret (mkhprod (hpr_challenge pf) (hpr_response1 pf) (hpr_response2 pf)).

(** ** mega/mega.go *)
(** mega/mega.go:16-30 megaHashToScalars: new scalars *)
Definition h_mega_hash (t : mtype) (dealer recipient : Z) (ad : bytes) (pk eph ss : ptr) : M (list ptr) :=
  let! pkv := load_p pk in let! ev := load_p eph in let! sv := load_p ss in
  let! hm := hlift (mega_hash t dealer recipient ad pkv ev sv) in
  hmap s_new hm.
(** mega/mega.go:37-43 ComputePopBase *)
Definition h_pop_base (t : mtype) (ad : bytes) (dealer : Z) (eph : ptr) : M ptr :=
  let! ev := load_p eph in
  let! b := hlift (pop_base t ad dealer ev) in
  p_new b.
(** mega/mega.go:46-53 VerifyPop *)
Definition h_verify_pop (t : mtype) (ad : bytes) (dealer : Z) (eph pop : ptr) (pf : hdlog) : M unit :=
  let! b := h_pop_base t ad dealer eph in
  let! g := p_new genG in
  h_dlog_verify pf g b eph pop ad.
(** the results of ComputeEphKeyAndPop, mega/mega.go:66 *)
Record heph := mkheph { he_beta : ptr; he_v : ptr; he_pop : ptr; he_proof : hdlog }.
(** mega/mega.go:66-79 ComputeEphKeyAndPop *)
Definition h_eph_and_pop (t : mtype) (seed ad : bytes) (dealer : Z) : M heph :=
  let! sd := hlift (seed_derive seed (eph_dst t)) in
  let! bv := hlift (scalar_from_seed sd) in
  let! beta := s_new bv in
  let! v := p_mul_by_g beta in
  let! b := h_pop_base t ad dealer v in
  let! pop := p_clone_mul b beta in
  let! sd2 := hlift (seed_derive seed (pop_proof_dst t)) in
  let! g := p_new genG in
  let! pf := h_dlog_create sd2 beta g b ad in
  hret (mkheph beta v pop pf).

(** ** mega/ciphertext.go *)
(** mega/ciphertext.go:135-140, 229-234 *)
Inductive hciphertext :=
| HMSingle (eph pop : ptr) (pf : hdlog) (ct : list ptr)
| HMPair (eph pop : ptr) (pf : hdlog) (ct : list (ptr * ptr))
| HMNil.
(** mega/ciphertext.go:65-91 EncryptCiphertextSingle: hm[0] receives the sum *)
Definition h_encrypt_single (seed : bytes) (pl : list ptr) (rc : list ptr) (dealer : Z) (ad : bytes) : M hciphertext :=
  let! u := hlift (check_plaintexts pl rc) in
  let! e := h_eph_and_pop MTsingle seed ad dealer in
  let! cts := hmap (fun ix =>
      let! ubeta := p_clone_mul (fst (snd ix)) (he_beta e) in
      let! hm := h_mega_hash MTsingle dealer (Z.of_nat (fst ix)) ad (fst (snd ix)) (he_v e) ubeta in
      let! h0 := hnth hm 0 in
      s_add h0 h0 (snd (snd ix)))
    (combine (seq 0 (List.length rc)) (combine rc pl)) in
  hret (HMSingle (he_v e) (he_pop e) (he_proof e) cts).
(** mega/ciphertext.go:236-262 EncryptCiphertextPair *)
Definition h_encrypt_pair (seed : bytes) (pl : list (ptr * ptr)) (rc : list ptr) (dealer : Z) (ad : bytes) : M hciphertext :=
  let! u := hlift (check_plaintexts pl rc) in
  let! e := h_eph_and_pop MTpair seed ad dealer in
  let! cts := hmap (fun ix =>
      let! ubeta := p_clone_mul (fst (snd ix)) (he_beta e) in
      let! hm := h_mega_hash MTpair dealer (Z.of_nat (fst ix)) ad (fst (snd ix)) (he_v e) ubeta in
      let! h0 := hnth hm 0 in
      let! h1 := hnth hm 1 in
      let! c0 := s_add h0 h0 (fst (snd (snd ix))) in
      let! c1 := s_add h1 h1 (snd (snd (snd ix))) in
      hret (c0, c1))
    (combine (seq 0 (List.length rc)) (combine rc pl)) in
  hret (HMPair (he_v e) (he_pop e) (he_proof e) cts).
(** mega/ciphertext.go:142-153 MEGaCiphertextSingle.Clone *)
Definition h_single_clone (eph pop : ptr) (pf : hdlog) (ct : list ptr) : M hciphertext :=
  let! ct := hmap s_clone ct in
  let! eph := p_clone eph in
  let! pop := p_clone pop in
  let! pf := h_dlog_clone pf in
  hret (HMSingle eph pop pf ct).
(** mega/ciphertext.go:155-157, 264-266 Recipients *)
Definition hm_recipients (m : hciphertext) : M Z :=
  match m with
  | HMSingle _ _ _ c => hret (Z.of_nat (List.length c))
  | HMPair _ _ _ c => hret (Z.of_nat (List.length c))
  | HMNil => hpanic
  end.
(** mega/ciphertext.go:163-165, 272-274 Ephemeral: the ciphertext's own point *)
Definition hm_eph (m : hciphertext) : M ptr :=
  match m with HMSingle e _ _ _ => hret e | HMPair e _ _ _ => hret e | HMNil => hpanic end.
(** mega/ciphertext.go:196-198, 284-286 VerifyPop *)
Definition hm_verify_pop (m : hciphertext) (ad : bytes) (dealer : Z) : M unit :=
  match m with
  | HMSingle e p pf _ => h_verify_pop MTsingle ad dealer e p pf
  | HMPair e p pf _ => h_verify_pop MTpair ad dealer e p pf
  | HMNil => hpanic
  end.
(** mega/ciphertext.go:175-180, 309-314 CheckValidity *)
Definition hm_check_validity (m : hciphertext) (expected : Z) (ad : bytes) (dealer : Z) : M unit :=
  let! n := hm_recipients m in
  if negb (n =? expected) then herr else hm_verify_pop m ad dealer.
(** mega/ciphertext.go:181-194, 316-329 VerifyIs *)
Definition hm_verify_is (m : hciphertext) (t : mtype) : M unit :=
  match m with
  | HMSingle _ _ _ _ => hguard (mtype_eqb MTsingle t)
  | HMPair _ _ _ _ => hguard (mtype_eqb MTpair t)
  | HMNil => hpanic
  end.
(** mega/ciphertext.go:200-209 DecryptFromSharedSecret *)
Definition h_decrypt_single_ss (eph : ptr) (ct : list ptr) (ad : bytes) (dealer recipient : Z) (pk ss : ptr) : M ptr :=
  if Z.of_nat (List.length ct) <=? recipient then herr
  else
    let! hm := h_mega_hash MTsingle dealer recipient ad pk eph ss in
    let! c := hindex ct recipient in
    let! n := s_clone c in
    let! h0 := hnth hm 0 in
    s_sub n c h0.
(** mega/ciphertext.go:288-300 DecryptFromSharedSecret *)
Definition h_decrypt_pair_ss (eph : ptr) (ct : list (ptr * ptr)) (ad : bytes) (dealer recipient : Z) (pk ss : ptr) : M (ptr * ptr) :=
  if Z.of_nat (List.length ct) <=? recipient then herr
  else
    let! hm := h_mega_hash MTpair dealer recipient ad pk eph ss in
    let! c := hindex ct recipient in
    let! n0 := s_clone (fst c) in
    let! h0 := hnth hm 0 in
    let! p0 := s_sub n0 (fst c) h0 in
    let! n1 := s_clone (snd c) in
    let! h1 := hnth hm 1 in
    let! p1 := s_sub n1 (snd c) h1 in
    hret (p0, p1).
(** mega/ciphertext.go:210-216, 301-307 Decrypt *)
Definition hm_decrypt (m : hciphertext) (ad : bytes) (dealer recipient : Z) (sk pk : ptr) : M hopening :=
  hm_verify_pop m ad dealer ;;
  match m with
  | HMSingle e _ _ ct =>
    let! ubeta := p_clone_mul e sk in
    let! s := h_decrypt_single_ss e ct ad dealer recipient pk ubeta in
    hret (HOSimple s)
  | HMPair e _ _ ct =>
    let! ubeta := p_clone_mul e sk in
    let! s := h_decrypt_pair_ss e ct ad dealer recipient pk ubeta in
    hret (HOPedersen (fst s) (snd s))
  | HMNil => hpanic
  end.
(** mega/ciphertext.go:217-227, 330-342 DecryptAndCheck *)
Definition hm_decrypt_and_check (m : hciphertext) (c : hcommitment) (ad : bytes) (dealer recipient : Z) (sk pk : ptr) : M hopening :=
  let! o := hm_decrypt m ad dealer recipient sk pk in
  let! b := hc_check_opening c recipient o in
  if b then hret o else herr.

(** ** poly/commitment.go, continued *)
(** poly/commitment.go:204-206, 327-329 Len *)
Definition hc_len (c : hcommitment) : M Z := let! l := hc_points c in hret (Z.of_nat (List.length l)).
(** poly/commitment.go:218-220, 341-343 CurveType *)
Definition hc_curve (c : hcommitment) : M unit :=
  let! l := hc_points c in match l with [] => hpanic | _ => hret tt end.
(** poly/commitment.go:227-235, 350-358 VerifyIs *)
Definition hc_verify_is (c : hcommitment) (ty : Z) : M unit :=
  hc_curve c ;; let! t := hc_type c in hguard (t =? ty).
(** poly/commitment.go:152-160, 274-282 Clone; through a wrapper it is the embedded commitment's *)
Definition hc_clone (c : hcommitment) : M hcommitment :=
  match hunwrap c with
  | HCSimple l => let! l := hmap p_clone l in hret (HCSimple l)
  | HCPedersen l => let! l := hmap p_clone l in hret (HCPedersen l)
  | _ => hpanic
  end.
(** poly/poly.go:35-44 Random *)
Definition q_random (num : Z) (rn : rng) : M (ptr * rng) :=
  if num <? 0 then hpanic
  else
    let! l := q_random_coeffs (Z.to_nat num) rn in
    let! p := q_new (fst l) in
    hret (p, snd l).

(** ** dealings/zk_proof.go *)
(** dealings/zk_proof.go:12-41 *)
Inductive hzkproof := HPNone | HPMasked (p : heqo) | HPProduct (p : hprod).
(** dealings/zk_proof.go:24-28, 37-41 Clone *)
Definition h_zk_clone (p : hzkproof) : M hzkproof :=
  match p with
  | HPNone => hret HPNone
  | HPMasked p => let! p := h_eqo_clone p in hret (HPMasked p)
  | HPProduct p => let! p := h_prod_clone p in hret (HPProduct p)
  end.

(** ** dealings/dealings.go *)
(** dealings/dealings.go:54-58 *)
Record hdealing := mkhdealing { hd_ct : hciphertext; hd_cm : hcommitment; hd_proof : hzkproof }.
(** dealings/secret_shares.go:26-37 *)
Inductive hshares :=
| HSRandom
| HSReshareUnmasked (s : ptr)
| HSReshareMasked (s m : ptr)
| HSTimes (l r rm : ptr)
| HSOther.
(** dealings/dealings.go:13-32 EncryptAndCommitSinglePolynomial *)
Definition h_encrypt_and_commit_single (po : ptr) (num : Z) (rc : list ptr) (dealer : Z) (ad seed : bytes)
  : M (hciphertext * hcommitment) :=
  let! pl := hmap (fun i => let! x := s_new (from_node_index (Z.of_nat i)) in q_evaluate_at po x) (seq 0 (List.length rc)) in
  let! ct := h_encrypt_single seed pl rc dealer ad in
  let! cm := hc_simple_create po num in
  hret (ct, cm).
(** dealings/dealings.go:34-52 EncryptAndCommitPairPolynomial *)
Definition h_encrypt_and_commit_pair (va ma : ptr) (num : Z) (rc : list ptr) (dealer : Z) (ad seed : bytes)
  : M (hciphertext * hcommitment) :=
  let! pl := hmap (fun i =>
      let! x := s_new (from_node_index (Z.of_nat i)) in
      let! vs := q_evaluate_at va x in
      let! ms := q_evaluate_at ma x in
      hret (vs, ms)) (seq 0 (List.length rc)) in
  let! ct := h_encrypt_pair seed pl rc dealer ad in
  let! cm := hc_pedersen_create va ma num in
  hret (ct, cm).
(** a nil result whose error was not checked panics where it is used; as at dealings/dealings.go:60-120 *)
Definition hor_panic {A} (m : M A) : M A := fun h => match m h with (h', Err) => (h', Panic) | r => r end.
(** dealings/dealings.go:60-120 NewIDkgDealingInternal *)
Definition h_new_dealing (sh : hshares) (seed : bytes) (threshold : Z) (rc : list ptr) (dealer : Z) (ad : bytes) : M hdealing :=
  if (threshold =? 0) || (Z.of_nat (List.length rc) <? threshold) then herr
  else
    let! s1 := hlift (seed_derive seed poly_dst) in
    let! rn := hlift (seed_rng s1) in
    let! ms := hlift (seed_derive seed mega_dst) in
    match sh with
    | HSRandom =>
      let! v := q_random threshold rn in
      let! m := q_random threshold (snd v) in
      let! e := h_encrypt_and_commit_pair (fst v) (fst m) threshold rc dealer ad ms in
      hret (mkhdealing (fst e) (snd e) HPNone)
    | HSReshareUnmasked s =>
      let! v := q_random_with_constant s threshold rn in
      let! e := h_encrypt_and_commit_single (fst v) threshold rc dealer ad ms in
      hret (mkhdealing (fst e) (snd e) HPNone)
    | HSReshareMasked s m =>
      let! v := q_random_with_constant s threshold rn in
      let! e := h_encrypt_and_commit_single (fst v) threshold rc dealer ad ms in
      let! ps := hlift (seed_derive seed eqo_dst) in
      let! pf := h_eqo_create ps s m ad in
      hret (mkhdealing (fst e) (snd e) (HPMasked pf))
    | HSTimes l r rm =>
      let! product := s_clone l in
      let! product := s_mul product l r in
      let! pm := s_random rn in
      let! v := q_random_with_constant product threshold (snd pm) in
      let! m := hor_panic (q_random_with_constant (fst pm) threshold (snd v)) in
      let! e := h_encrypt_and_commit_pair (fst v) (fst m) threshold rc dealer ad ms in
      let! ps := hlift (seed_derive seed prod_dst) in
      let! pf := hor_panic (h_prod_create ps l r rm product (fst pm) ad) in
      hret (mkhdealing (fst e) (snd e) (HPProduct pf))
    | HSOther => hret (mkhdealing HMNil HCNil HPNone)
    end.
(** dealings/transcript.go:11-23 *)
Inductive hoperation :=
| HTRandom
| HTReshareUnmasked (p : hcommitment)
| HTReshareMasked (p : hcommitment)
| HTTimes (l r : hcommitment)
| HTOther.
(** dealings/dealings.go:121-187 PubliclyVerify *)
Definition h_publicly_verify (d : hdealing) (op : hoperation) (threshold dealer receivers : Z) (ad : bytes) : M unit :=
  let! n := hc_len (hd_cm d) in
  if negb (n =? threshold) then herr
  else
    hc_curve (hd_cm d) ;;
    hm_check_validity (hd_ct d) receivers ad dealer ;;
    match op, hd_proof d with
    | HTRandom, HPNone =>
      hc_verify_is (hd_cm d) ct_pedersen ;;
      hm_verify_is (hd_ct d) MTpair
    | HTReshareMasked p, HPMasked pf =>
      hc_verify_is (hd_cm d) ct_simple ;;
      hm_verify_is (hd_ct d) MTsingle ;;
      let! e := hc_eval p dealer in
      let! k := hc_constant_term (hd_cm d) in
      h_eqo_verify pf e k ad
    | HTReshareUnmasked p, HPNone =>
      hc_verify_is (hd_cm d) ct_simple ;;
      hc_verify_is p ct_simple ;;
      hm_verify_is (hd_ct d) MTsingle ;;
      match p with
      | HCPedersen _ => herr
      | HCSimple l =>
        let! e := h_eval_points l dealer in
        let! k := hc_constant_term (hd_cm d) in
        let! b := p_equal e k in
        hguard b
      | _ => hret tt
      end
    | HTTimes _ _, HPNone => hpanic
    | HTTimes l r, HPProduct pf =>
      hc_verify_is (hd_cm d) ct_pedersen ;;
      hm_verify_is (hd_ct d) MTpair ;;
      hc_verify_is l ct_simple ;;
      hc_verify_is r ct_pedersen ;;
      let! el := hc_eval l dealer in
      let! er := hc_eval r dealer in
      let! k := hc_constant_term (hd_cm d) in
      h_prod_verify pf el er k ad
    | _, _ => herr
    end.
(** dealings/dealings.go:189-195 PrivateVerify *)
Definition h_private_verify (d : hdealing) (sk pk : ptr) (ad : bytes) (dealer recipient : Z) : M unit :=
  let! c := hc_constant_term (hd_cm d) in
  let! o := hm_decrypt_and_check (hd_ct d) (hd_cm d) ad dealer recipient sk pk in
  hret tt.

(** ** dealings/transcript.go *)
(** dealings/transcript.go:25-57 CombineCommitmentsViaInterpolation; the commitments are cloned at 30 *)
Definition h_combine_interp (ty : Z) (threshold : Z) (ds : list (Z * hdealing)) : M hcommitment :=
  let! cms := hmap (fun kd => let! c := hc_clone (hd_cm (snd kd)) in hc_points c) ds in
  let! cs := l_at_zero (map fst ds) in
  let! n := hlift (go_make threshold) in
  let! pts := hmap (fun i => let! vals := hmap (fun l => hnth l i) cms in l_interpolate_point cs vals) (seq 0 n) in
  hret (HCInterp (if ty =? ct_simple then HCSimple pts else if ty =? ct_pedersen then HCPedersen pts else HCNil)).
(** dealings/transcript.go:80-82: the accumulators are written in place *)
Fixpoint h_sum_points (acc pts : list ptr) : M (list ptr) :=
  match acc, pts with
  | [], _ => hret []
  | a :: acc, p :: pts =>
    let! a := p_add a a p in
    let! r := h_sum_points acc pts in
    hret (a :: r)
  | _ :: _, [] => hpanic
  end.
(** dealings/transcript.go:75-83 *)
Fixpoint h_sum_dealings (acc : list ptr) (ds : list (Z * hdealing)) : M (list ptr) :=
  match ds with
  | [] => hret acc
  | (_, d) :: ds =>
    let! t := hc_type (hd_cm d) in
    if negb (t =? ct_pedersen) then herr
    else
      let! l := hc_points (hd_cm d) in
      let! acc := h_sum_points acc l in
      h_sum_dealings acc ds
  end.
(** dealings/transcript.go:60-64 *)
Fixpoint h_check_lengths (ds : list (Z * hdealing)) (threshold : Z) : M unit :=
  match ds with
  | [] => hret tt
  | (_, d) :: ds =>
    let! n := hc_len (hd_cm d) in
    if negb (n =? threshold) then herr else h_check_lengths ds threshold
  end.
(** Points()[0] at 107, not cloned; dealings/transcript.go:107 *)
Definition hc_first (c : hcommitment) : M ptr :=
  let! l := hc_points c in match l with [] => hpanic | P :: _ => hret P end.
(** dealings/transcript.go:59-123 NewTranscriptInternal *)
Definition h_new_transcript (threshold : Z) (ds : list (Z * hdealing)) (op : hoperation) : M hcommitment :=
  h_check_lengths ds threshold ;;
  match op with
  | HTRandom =>
    let! n := hlift (go_make threshold) in
    let! acc := hmap (fun _ => p_new gzero) (repeat tt n) in
    let! l := h_sum_dealings acc ds in
    hret (HCSum (HCPedersen l))
  | HTReshareMasked p =>
    let! t := hc_type p in
    if negb (t =? ct_pedersen) then herr
    else
      let! n := hc_len p in
      if Z.of_nat (List.length ds) <? n then herr
      else h_combine_interp ct_simple threshold ds
  | HTReshareUnmasked p =>
    let! t := hc_type p in
    if negb (t =? ct_simple) then herr
    else
      let! n := hc_len p in
      if Z.of_nat (List.length ds) <? n then herr
      else
        let! c := h_combine_interp ct_simple threshold ds in
        let! a := hc_first p in
        let! b := hc_first c in
        let! e := p_equal a b in
        if e then hret c else herr
  | HTTimes l r =>
    let! tl := hc_type l in
    if negb (tl =? ct_simple) then herr
    else
      let! tr := hc_type r in
      if negb (tr =? ct_pedersen) then herr
      else
        let! nl := hc_len l in
        let! nr := hc_len r in
        if Z.of_nat (List.length ds) <? nl + nr - 1 then herr
        else h_combine_interp ct_pedersen threshold ds
  | HTOther => hret HCNil
  end.

(** dealings/transcript.go:151-161: the openings' own scalars are collected *)
Fixpoint h_collect_simple (os : list (Z * hopening)) : M (list (Z * ptr)) :=
  match os with
  | [] => hret []
  | (i, o) :: os =>
    match o with
    | HOSimple v => let! r := h_collect_simple os in hret ((i, v) :: r)
    | HOPedersen _ _ => herr
    | _ => h_collect_simple os
    end
  end.
(** dealings/transcript.go:178-189 *)
Fixpoint h_collect_pedersen (os : list (Z * hopening)) : M (list (Z * (ptr * ptr))) :=
  match os with
  | [] => hret []
  | (i, o) :: os =>
    match o with
    | HOPedersen v m => let! r := h_collect_pedersen os in hret ((i, (v, m)) :: r)
    | HOSimple _ => herr
    | _ => h_collect_pedersen os
    end
  end.
(** dealings/transcript.go:138-208 ReconstructShareFromOpenings *)
Definition h_reconstruct_share (d : hdealing) (os : list (Z * hopening)) (ix : Z) : M hopening :=
  let! n := hc_len (hd_cm d) in
  if Z.of_nat (List.length os) <? n then herr
  else
    hc_curve (hd_cm d) ;;
    let! x := s_new (from_node_index ix) in
    let! o :=
      match hd_cm d with
      | HCSimple _ =>
        let! vs := h_collect_simple os in
        let! cs := l_at_value x (map fst vs) in
        let! v := l_interpolate_scalar cs (map snd vs) in
        hret (HOSimple v)
      | HCPedersen _ =>
        let! vs := h_collect_pedersen os in
        let! cs := l_at_value x (map fst vs) in
        let! v := l_interpolate_scalar cs (map (fun e => fst (snd e)) vs) in
        let! m := l_interpolate_scalar cs (map (fun e => snd (snd e)) vs) in
        hret (HOPedersen v m)
      | _ => hret HONil
      end in
    hc_return_if_consistent (hd_cm d) ix o.

(** ** dealings/commitment.go *)
(** dealings/commitment.go:76-84: the two accumulators are written in place *)
Fixpoint h_sum_pedersen (os : list hopening) (v m : ptr) : M hopening :=
  match os with
  | [] => hret (HOPedersen v m)
  | HOPedersen v' m' :: os =>
    let! v := s_add v v v' in
    let! m := s_add m m m' in
    h_sum_pedersen os v m
  | _ => herr
  end.
(** dealings/commitment.go:91-100 *)
Fixpoint h_zip_simple (ixs : list Z) (os : list hopening) : M (list (Z * ptr)) :=
  match os with
  | [] => hret []
  | o :: os =>
    match ixs with
    | [] => hpanic
    | x :: ixs => match o with HOSimple v => let! r := h_zip_simple ixs os in hret ((x, v) :: r) | _ => herr end
    end
  end.
(** dealings/commitment.go:116-126 *)
Fixpoint h_zip_pedersen (ixs : list Z) (os : list hopening) : M (list (Z * (ptr * ptr))) :=
  match os with
  | [] => hret []
  | o :: os =>
    match ixs with
    | [] => hpanic
    | x :: ixs => match o with HOPedersen v m => let! r := h_zip_pedersen ixs os in hret ((x, (v, m)) :: r) | _ => herr end
    end
  end.
(** dealings/commitment.go:69-143 CombineOpenings *)
Definition h_combine_openings (ixs : list Z) (os : list hopening) (tc : hcommitment) (receiver : Z) : M hopening :=
  let! o :=
    match tc with
    | HCSum _ => let! v := s_new fzero in let! m := s_new fzero in h_sum_pedersen os v m
    | HCInterp c =>
      match c with
      | HCSimple _ =>
        let! vs := h_zip_simple ixs os in
        let! cs := l_at_zero (map fst vs) in
        let! v := l_interpolate_scalar cs (map snd vs) in
        hret (HOSimple v)
      | HCPedersen _ =>
        let! vs := h_zip_pedersen ixs os in
        let! cs := l_at_zero (map fst vs) in
        let! v := l_interpolate_scalar cs (map (fun e => fst (snd e)) vs) in
        let! m := l_interpolate_scalar cs (map (fun e => snd (snd e)) vs) in
        hret (HOPedersen v m)
      | _ => hret HONil
      end
    | _ => hret HONil
    end in
  hc_return_if_consistent tc receiver o.
(** dealings/commitment.go:48-67 FromDealings *)
Definition h_from_dealings (ds : list (Z * hdealing)) (tc : hcommitment) (ad : bytes) (receiver : Z) (sk pk : ptr) : M hopening :=
  let! os := hmap (fun kd => hm_decrypt_and_check (hd_ct (snd kd)) (hd_cm (snd kd)) ad (fst kd) receiver sk pk) ds in
  h_combine_openings (map fst ds) os tc receiver.
(** dealings/commitment.go:23-47 FromDealingsAndOpenings *)
Definition h_from_dealings_and_openings (ds : list (Z * hdealing)) (provided : list (Z * list (Z * hopening)))
  (tc : hcommitment) (ad : bytes) (receiver : Z) (sk pk : ptr) : M hopening :=
  let! os := hmap (fun kd =>
      match zlookup (fst kd) provided with
      | Some shares => h_reconstruct_share (snd kd) shares receiver
      | None => hm_decrypt_and_check (hd_ct (snd kd)) (hd_cm (snd kd)) ad (fst kd) receiver sk pk
      end) ds in
  h_combine_openings (map fst ds) os tc receiver.

(** ** complaints/complaints.go *)
(** complaints/complaints.go:17-20 *)
Record hcomplaint := mkhcomplaint { hcp_proof : hdlog; hcp_secret : ptr }.
(** complaints/complaints.go:46-60 NewComplaintInternal, 62-69 createProofAssocData *)
Definition h_new_complaint (seed : bytes) (d : hdealing) (dealer receiver : Z) (sk pk : ptr) (ad : bytes) : M hcomplaint :=
  let! e := hm_eph (hd_ct d) in
  let! ss := p_clone_mul e sk in
  let! pkv := load_p pk in
  let! a := hlift (assoc_data ad receiver dealer pkv) in
  let! g := p_new genG in
  let! pf := h_dlog_create seed sk g e a in
  hret (mkhcomplaint pf ss).
(** complaints/complaints.go:25-36, the Scan *)
Fixpoint h_complaints_loop (ds : list (Z * hdealing)) (ad : bytes) (receiver : Z) (sk pk : ptr) (seed : bytes)
  : M (list (Z * hcomplaint)) :=
  match ds with
  | [] => hret []
  | (i, d) :: ds =>
    let! o := hattempt (hm_decrypt_and_check (hd_ct d) (hd_cm d) ad i receiver sk pk) in
    match o with
    | Some _ => h_complaints_loop ds ad receiver sk pk seed
    | None =>
      let! s := hlift (seed_derive seed (complaint_dst i)) in
      let! c := h_new_complaint s d i receiver sk pk ad in
      let! r := h_complaints_loop ds ad receiver sk pk seed in
      hret ((i, c) :: r)
    end
  end.
(** complaints/complaints.go:22-44 GenerateComplaints *)
Definition h_generate_complaints (ds : list (Z * hdealing)) (ad : bytes) (receiver : Z) (sk pk : ptr) (seed : bytes)
  : M (list (Z * hcomplaint)) :=
  let! r := h_complaints_loop ds ad receiver sk pk seed in
  match r with [] => herr | _ => hret r end.
(** complaints/complaints.go:71-100 Verify *)
Definition h_complaint_verify (c : hcomplaint) (d : hdealing) (dealer complainer : Z) (pk : ptr) (ad : bytes) : M unit :=
  let! pkv := load_p pk in
  let! a := hlift (assoc_data ad complainer dealer pkv) in
  let! e := hm_eph (hd_ct d) in
  let! g := p_new genG in
  h_dlog_verify (hcp_proof c) g e pk (hcp_secret c) a ;;
  let! t := hc_type (hd_cm d) in
  let! o :=
    match hd_ct d with
    | HMSingle e _ _ ct =>
      if t =? ct_simple
      then let! s := h_decrypt_single_ss e ct ad dealer complainer pk (hcp_secret c) in hret (HOSimple s)
      else herr
    | HMPair e _ _ ct =>
      if t =? ct_pedersen
      then let! s := h_decrypt_pair_ss e ct ad dealer complainer pk (hcp_secret c) in hret (HOPedersen (fst s) (snd s))
      else herr
    | HMNil => herr
    end in
  let! b := hc_check_opening (hd_cm d) complainer o in
  if b then herr else hret tt.

(** ** testutils/test_utils.go *)
(** testutils/test_utils.go:23-25, 38-40: ctexts[target] = ctexts[target].Add(ctexts[target], randomizer) *)
Fixpoint h_add_all (ts : list Z) (cts : list ptr) (r : ptr) : M unit :=
  match ts with
  | [] => hret tt
  | t :: ts => let! c := hindex cts t in s_add c c r ;; h_add_all ts cts r
  end.
(** testutils/test_utils.go:12-57 CorruptDealing: single ciphertexts are cloned (20-22), pairs are not
    (34-37); the proof of possession is shared (29, 44) *)
Definition h_corrupt_dealing (d : hdealing) (targets : list Z) (seed : bytes) : M hdealing :=
  hc_curve (hd_cm d) ;;
  let! rn := hlift (seed_rng seed) in
  let! r := s_random rn in
  let! ct :=
    match hd_ct d with
    | HMSingle e p pf ct =>
      let! cts := hmap s_clone ct in
      h_add_all targets cts (fst r) ;;
      let! e := p_clone e in
      let! p := p_clone p in
      hret (HMSingle e p pf cts)
    | HMPair e p pf ct =>
      h_add_all targets (map fst ct) (fst r) ;;
      let! e := p_clone e in
      let! p := p_clone p in
      hret (HMPair e p pf ct)
    | HMNil => hret HMNil
    end in
  let! pf := h_zk_clone (hd_proof d) in
  let! cm := hc_clone (hd_cm d) in
  hret (mkhdealing ct cm pf).
(** testutils/test_utils.go:59-66 CorruptDealingForAllRecipients *)
Definition h_corrupt_all (d : hdealing) (seed : bytes) : M hdealing :=
  let! n := hm_recipients (hd_ct d) in
  h_corrupt_dealing d (map Z.of_nat (seq 0 (Z.to_nat n))) seed.
End HeapDeal.
