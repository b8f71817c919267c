(** Memory-level model, continued: commitments, key derivation and signing
    (poly/commitment.go, key/key_derivation.go, sign/*.go) with explicit cells.
    Hash inputs are formed from the values read from the cells; hashing itself
    does not touch scalars or points. *)
From Coq Require Import ZArith Lia Bool String List.
From Verif Require Import Base Zmod Fields ModelScalar ModelXmd ModelRo ModelPoly ModelGroup ModelCommit ModelZk ModelMega
  ModelDealing ModelKey ModelSign ModelHeap.
Import ListNotations.
Open Scope Z_scope.

Notation "'let!' x := m 'in' k" := (hbind m (fun x => k)) (at level 200, x name, m at level 100, k at level 200).
Notation "m ;; k" := (hbind m (fun _ => k)) (at level 199, right associativity).

(** poly/commitment.go:39-40: openings hold pointers to scalars *)
Inductive hopening :=
| HOSimple (v : ptr)
| HOPedersen (v m : ptr)
| HOSimplePtr (v : ptr)
| HOPedersenPtr (v m : ptr)
| HONil.
(** poly/commitment.go:117-119, 253-255, dealings/combined_commitment.go:12-26:
    commitments hold pointers to points; no method writes the points slice *)
Inductive hcommitment :=
| HCSimple (pts : list ptr)
| HCPedersen (pts : list ptr)
| HCSum (c : hcommitment)
| HCInterp (c : hcommitment)
| HCNil.

Section HeapSign.
Context {X : Oracles} {GO : Grp}.

(** dealings/combined_commitment.go:12-26, method promotion *)
Fixpoint hunwrap (c : hcommitment) : hcommitment :=
  match c with HCSum c => hunwrap c | HCInterp c => hunwrap c | c => c end.
(** poly/commitment.go:200-202, 323-325 Points *)
Definition hc_points (c : hcommitment) : M (list ptr) :=
  match hunwrap c with HCSimple l | HCPedersen l => hret l | _ => hpanic end.
(** poly/commitment.go:196-198, 319-321 Type *)
Definition hc_type (c : hcommitment) : M Z :=
  match hunwrap c with HCSimple _ => hret ct_simple | HCPedersen _ => hret ct_pedersen | _ => hpanic end.
(** poly/commitment.go:237-239, 360-362 ConstantTerm *)
Definition hc_constant_term (c : hcommitment) : M ptr :=
  let! l := hc_points c in match l with [] => hpanic | P :: _ => p_clone P end.
(** poly/commitment.go:124-128, from the last point down *)
Fixpoint h_eval_loop (i : Z) (acc : ptr) (pts : list ptr) : M ptr :=
  match pts with
  | [] => hret acc
  | pt :: pts =>
    let! acc := p_mul_by_node_index acc i in
    let! acc := p_add acc acc pt in
    h_eval_loop i acc pts
  end.
(** poly/commitment.go:121-130 evaluateAt *)
Definition h_eval_points (l : list ptr) (i : Z) : M ptr :=
  match l with
  | [] => hpanic
  | _ => let! acc := p_new gzero in h_eval_loop i acc (rev l)
  end.
(** poly/commitment.go:240-242, 363-365 EvaluateAt *)
Definition hc_eval (c : hcommitment) (i : Z) : M ptr := let! l := hc_points c in h_eval_points l i.
(** poly/commitment.go:244-251, 366-374 CheckOpening *)
Definition hc_check_opening (c : hcommitment) (i : Z) (o : hopening) : M bool :=
  match hunwrap c, o with
  | HCSimple l, HOSimple v => let! e := h_eval_points l i in let! g := p_mul_by_g v in p_equal e g
  | HCPedersen l, HOPedersen v m => let! e := h_eval_points l i in let! g := p_pedersen v m in p_equal e g
  | _, _ => hpanic
  end.
(** poly/commitment.go:221-226, 344-349 ReturnOpeningIfConsistent: the very
    opening that was passed in *)
Definition hc_return_if_consistent (c : hcommitment) (i : Z) (o : hopening) : M hopening :=
  let! b := hc_check_opening c i o in if b then hret o else herr.
(** poly/commitment.go:142-151 simpleCommitment.Create *)
Definition hc_simple_create (q : ptr) (num : Z) : M hcommitment :=
  let! nz := q_non_zero q in
  if num <? Z.of_nat nz then herr
  else let! pts := hmap (fun i => let! c := q_coeff q i in p_mul_by_g c) (seq 0 (Z.to_nat num)) in hret (HCSimple pts).
(** poly/commitment.go:263-272 pedersenCommitment.Create; || stops early *)
Definition hc_pedersen_create (values masking : ptr) (num : Z) : M hcommitment :=
  let! n1 := q_non_zero values in
  if num <? Z.of_nat n1 then herr
  else
    let! n2 := q_non_zero masking in
    if num <? Z.of_nat n2 then herr
    else
      let! pts := hmap (fun i => let! a := q_coeff values i in let! b := q_coeff masking i in p_pedersen a b)
                       (seq 0 (Z.to_nat num)) in
      hret (HCPedersen pts).

(** ** key/key_derivation.go *)
(** key/key_derivation.go:75-90 ckdpub *)
Fixpoint h_ckdpub (fuel : nat) (pk : ptr) (chain index : bytes) : M (ptr * bytes * ptr) :=
  match fuel with
  | O => hlift Diverge
  | S fuel =>
    let! pkv := load_p pk in
    let out := hmac512 chain (ser pkv ++ index) in
    let! off := hlift (scalar_from_bytes_wide (firstn 32 out)) in
    let! keyOffset := s_new off in
    let! c := p_clone pk in
    let! t := p_mul_by_g keyOffset in
    let! newKey := p_add c pk t in
    let! offv := load_s keyOffset in
    let! nk := load_p newKey in
    let ret := (newKey, skipn 32 out, keyOffset) in
    if negb (bytes_eqb (scalar_serialize offv) (firstn 32 out)) || is_infinity nk
    then fun h => match h_ckdpub fuel pk chain (index_next index) h with
                  | (h', Panic) => (h', Panic)
                  | (h', Diverge) => (h', Diverge)
                  | (h', _) => (h', Ok ret)
                  end
    else hret ret
  end.
(** key/key_derivation.go:102-108 *)
Fixpoint h_tweak_loop (pa : path) (k : ptr) (chain : bytes) (off : ptr) : M (ptr * bytes) :=
  match pa with
  | [] => hret (off, chain)
  | i :: pa =>
    let! r := h_ckdpub rand_fuel k chain i in
    let! off := s_add off off (snd r) in
    h_tweak_loop pa (fst (fst r)) (snd (fst r)) off
  end.
(** key/key_derivation.go:92-110 DeriveTweak *)
Definition h_derive_tweak (pa : path) (pk : ptr) : M (ptr * bytes) :=
  let! k := p_clone pk in
  let! off := s_new fzero in
  h_tweak_loop pa k (repeat 0 32) off.

(** ** sign/sign.go, sign/share.go, sign/combined_sig.go *)
(** sign/sign.go:22-27 *)
Definition h_presig_point (t : hcommitment) : M ptr :=
  match t with
  | HCInterp c =>
    let! ty := hc_type c in
    if ty =? ct_simple
    then match c with HCSimple _ => hc_constant_term c | _ => hpanic end
    else herr
  | _ => herr
  end.
(** the results of DeriveRho, sign/sign.go:21 *)
Record hrho := mkhrho { hr_rho : ptr; hr_tweak : ptr; hr_randomizer : ptr; hr_presig : ptr }.
(** sign/sign.go:21-47 DeriveRho *)
Definition h_derive_rho (hashed randomness : bytes) (pa : path) (key presig : hcommitment) : M hrho :=
  let! ps := h_presig_point presig in
  let! kt := hc_constant_term key in
  let! t := h_derive_tweak pa kt in
  let! psv := load_p ps in
  let! tv := load_s (fst t) in
  let! rzv := hlift (ro_output_scalar (rho_ro hashed randomness psv tv)) in
  let! randomizer := s_new rzv in
  let! c := p_clone ps in
  let! g1 := p_new genG in
  let! g2 := p_new genG in
  let! m := p_scalar_mul g1 g2 randomizer in
  let! rp := p_add c ps m in
  let! rpv := load_p rp in
  let! rhov := hlift (ecdsa_conversion rpv) in
  let! rho := s_new rhov in
  hret (mkhrho rho (fst t) randomizer rp).

(** sign/share.go:29-32: nil unless lambda has the value type *)
Definition h_lambda_parts (l : hopening) : option (ptr * ptr) :=
  match l with HOPedersen v m => Some (v, m) | _ => None end.
(** sign/share.go:12-15 *)
Record hshare := mkhshare { hs_num : hopening; hs_den : hopening }.
(** sign/share.go:33-39 *)
Definition h_nu (theta rho : ptr) (lambda key_lambda : hopening) : M hopening :=
  match key_lambda with
  | HOPedersen kv km =>
    match h_lambda_parts lambda with
    | Some (lv, lm) =>
      let! nuValue := s_clone theta in
      let! nuValue := s_mul nuValue theta lv in
      let! t := s_clone rho in
      let! t := s_mul t rho kv in
      let! nuValue := s_add nuValue nuValue t in
      let! nuMask := s_clone theta in
      let! nuMask := s_mul nuMask theta lm in
      let! t := s_clone rho in
      let! t := s_mul t rho km in
      let! nuMask := s_add nuMask nuMask t in
      hret (HOPedersen nuValue nuMask)
    | None => hpanic
    end
  | _ => hret HONil
  end.
(** sign/share.go:41-48 *)
Definition h_mu (randomizer : ptr) (lambda kappa_lambda : hopening) : M hopening :=
  match kappa_lambda with
  | HOPedersen kv km =>
    match h_lambda_parts lambda with
    | Some (lv, lm) =>
      let! muValue := s_clone randomizer in
      let! muValue := s_mul muValue randomizer lv in
      let! muValue := s_add muValue muValue kv in
      let! muMask := s_clone randomizer in
      let! muMask := s_mul muMask randomizer lm in
      let! muMask := s_add muMask muMask km in
      hret (HOPedersen muValue muMask)
    | None => hpanic
    end
  | _ => hret HONil
  end.
(** sign/share.go:17-54 *)
Definition h_new_share (pa : path) (hashed randomness : bytes) (key presig : hcommitment)
  (lambda kappa_lambda key_lambda : hopening) : M hshare :=
  let! r := h_derive_rho hashed randomness pa key presig in
  let! ev := hlift (hash_to_integer hashed) in
  let! e := s_new ev in
  let! c := s_clone (hr_rho r) in
  let! m := s_mul c (hr_rho r) (hr_tweak r) in
  let! theta := s_add e e m in
  let! nu := h_nu theta (hr_rho r) lambda key_lambda in
  let! mu := h_mu (hr_randomizer r) lambda kappa_lambda in
  hret (mkhshare nu mu).

(** sign/combined_sig.go:13-16 *)
Record hsig := mkhsig { hg_r : ptr; hg_s : ptr }.
(** sign/combined_sig.go:30-43: the samples are the scalars of the shares themselves *)
Definition h_num_sample (s : hshare) : list ptr := match hs_num s with HOPedersen v _ => [v] | _ => [] end.
(** sign/combined_sig.go:38-40 *)
Definition h_den_sample (s : hshare) : list ptr := match hs_den s with HOPedersen v _ => [v] | _ => [] end.
(** sign/combined_sig.go:18-66 *)
Definition h_combine_sig (pa : path) (hashed randomness : bytes) (key presig : hcommitment) (threshold : Z)
  (shares : list (Z * hshare)) : M hsig :=
  if Z.of_nat (List.length shares) <? threshold then herr
  else
    let! r := h_derive_rho hashed randomness pa key presig in
    let! _ := hlift (go_make threshold) in
    let taken := if threshold <=? 0 then [] else shares in
    let! cs := l_at_zero (map fst taken) in
    let! num := l_interpolate_scalar cs (flat_map (fun e => h_num_sample (snd e)) taken) in
    let! den := l_interpolate_scalar cs (flat_map (fun e => h_den_sample (snd e)) taken) in
    let! inv := s_invert den den in
    let! sigma := s_mul num num inv in
    let! hi := s_is_high sigma in
    let! norm := (if hi then s_negate sigma sigma else hret sigma) in
    hret (mkhsig (hr_rho r) norm).
(** sign/combined_sig.go:68-98 Verify *)
Definition h_sig_verify (t : hsig) (pa : path) (hashed randomness : bytes) (key presig : hcommitment) : M unit :=
  let! zr := s_is_zero (hg_r t) in
  let! zs := (if zr then hret true else s_is_zero (hg_s t)) in
  if zs then herr
  else
    let! msgv := hlift (hash_to_integer hashed) in
    let! msg := s_new msgv in
    let! r := h_derive_rho hashed randomness pa key presig in
    let! eqr := s_equal (hg_r t) (hr_rho r) in
    let! bad := (if eqr then s_is_high (hg_s t) else hret true) in
    if bad then herr
    else
      let! mk := hc_constant_term key in
      let! tweakg := p_mul_by_g (hr_tweak r) in
      let! publicKey := p_add tweakg tweakg mk in
      let! c := s_clone (hg_s t) in
      let! sInv := s_invert c (hg_s t) in
      let! c := s_clone msg in
      let! u1 := s_mul c msg sInv in
      let! c := s_clone (hg_r t) in
      let! u2 := s_mul c (hg_r t) sInv in
      let! g := p_new genG in
      let! rp := p_mul_points g u1 publicKey u2 in
      let! rpv := load_p rp in
      if is_infinity rpv then herr
      else
        let! psv := load_p (hr_presig r) in
        hlift (guard (feqb (affx rpv) (affx psv))).
End HeapSign.
