(** Signing: sign/sign.go, sign/share.go, sign/combined_sig.go. *)
From Coq Require Import ZArith Lia Bool String List.
From Verif Require Import Base Zmod Fields ModelScalar ModelXmd ModelRo ModelPoly ModelGroup ModelCommit ModelZk ModelMega
  ModelDealing ModelKey.
Import ListNotations.
Open Scope Z_scope.

Section Sign.
Context {X : Oracles} {GO : Grp}.

(** sign/sign.go:12-15 EcdsaConversion; AsBytes (curve/k256_fe.go:166-174) is
    32 bytes big-endian *)
Definition ecdsa_conversion (P : G) : res Fq := scalar_from_bytes_wide (be_bytes 32 (fv (affx P))).
(** sign/sign.go:17-19 ConvertHashToInteger *)
Definition hash_to_integer (h : bytes) : res Fq := scalar_from_bytes_wide h.

(** the results of DeriveRho, sign/sign.go:21 *)
Record rho_out := mkrho { ro_rho : Fq; ro_tweak : Fq; ro_randomizer : Fq; ro_presig : G }.

(** sign/sign.go:32-36, the oracle of DeriveRho *)
Definition rho_ro (hashed randomness : bytes) (presig : G) (tweak : Fq) : ro :=
  add_scalar "key_tweak" tweak
  (add_point "pre_sig" presig
  (add_bytes "hashed_message" hashed
  (add_bytes "randomness" randomness (new_ro (str "ic-crypto-tecdsa-rerandomize-presig"))))).
(** sign/sign.go:22-27: the presignature point; the assertion to
    *SimpleCommitment panics for a simple commitment behind another wrapper *)
Definition presig_point (t : transcript) : res G :=
  match tr_commitment t with
  | CInterp c =>
    do ty <- c_type c;
    if ty =? ct_simple
    then match c with CSimple _ => c_constant_term c | _ => Panic end
    else Err
  | _ => Err
  end.
(** sign/sign.go:21-47 DeriveRho *)
Definition derive_rho (hashed randomness : bytes) (pa : path) (key presig : transcript) : res rho_out :=
  do ps <- presig_point presig;
  do kt <- tr_constant_term key;
  do t <- derive_tweak pa kt;
  let tweak := fst t in
  do rz <- ro_output_scalar (rho_ro hashed randomness ps tweak);
  let rp := gadd ps (smul rz genG) in
  do rho <- ecdsa_conversion rp;
  Ok (mkrho rho tweak rz rp).

(** sign/share.go:12-15 (line numbers within share.go) *)
Record sig_share := mkshare { ss_num : opening; ss_den : opening }.

(** one product of a possibly nil lambda component (sign/share.go:27-32: nil unless
    lambda is the value type; using nil panics) *)
Definition lambda_parts (l : opening) : option (Fq * Fq) :=
  match l with OPedersen v m => Some (v, m) | _ => None end.

(** sign/share.go:17-54 NewThresholdEcdsaSigShareInternal *)
Definition new_share (pa : path) (hashed randomness : bytes) (key presig : transcript)
  (lambda kappa_lambda key_lambda : opening) : res sig_share :=
  do r <- derive_rho hashed randomness pa key presig;
  do e <- hash_to_integer hashed;
  let theta := fadd e (fmul (ro_rho r) (ro_tweak r)) in
  do nu <- match key_lambda with
           | OPedersen kv km =>
             match lambda_parts lambda with
             | Some (lv, lm) =>
               Ok (OPedersen (fadd (fmul theta lv) (fmul (ro_rho r) kv)) (fadd (fmul theta lm) (fmul (ro_rho r) km)))
             | None => Panic
             end
           | _ => Ok ONil
           end;
  do mu <- match kappa_lambda with
           | OPedersen kv km =>
             match lambda_parts lambda with
             | Some (lv, lm) =>
               Ok (OPedersen (fadd (fmul (ro_randomizer r) lv) kv) (fadd (fmul (ro_randomizer r) lm) km))
             | None => Panic
             end
           | _ => Ok ONil
           end;
  Ok (mkshare nu mu).

(** sign/share.go:56-86 Verify.  The type switches look for pointers, and both
    comparisons use sigmaNum; sigmaNum itself is built from kappaTimesLambdaJ
    twice (line 72). *)
Definition share_verify (s : sig_share) (pa : path) (hashed randomness : bytes) (signer : Z)
  (key presig lambda kappa_lambda key_lambda : transcript) : res unit :=
  do r <- derive_rho hashed randomness pa key presig;
  do e <- hash_to_integer hashed;
  let theta := fadd e (fmul (ro_rho r) (ro_tweak r)) in
  do lj <- tr_eval lambda signer;
  do klj <- tr_eval kappa_lambda signer;
  do xlj <- tr_eval key_lambda signer;
  let num := gadd (smul theta lj) (smul (ro_rho r) klj) in
  let den := gadd (smul (ro_randomizer r) lj) klj in
  do _ <- match ss_num s with
          | OPedersenPtr v m => guard (geqb num (pedersen v m))
          | _ => Ok tt
          end;
  match ss_den s with
  | OPedersenPtr v m => guard (geqb num (pedersen v m))
  | _ => Ok tt
  end.

(** sign/combined_sig.go:13-16 *)
Record signature := mksig { sg_r : Fq; sg_s : Fq }.

(** sign/combined_sig.go:30-43: samples of the shares of the value type, all
    of them (count stays 0; with a threshold <= 0 none) *)
Definition num_sample (s : sig_share) : list Fq := match ss_num s with OPedersen v _ => [v] | _ => [] end.
(** sign/combined_sig.go:38-40 *)
Definition den_sample (s : sig_share) : list Fq := match ss_den s with OPedersen v _ => [v] | _ => [] end.

(** sign/combined_sig.go:18-66 NewThresholdEcdsaCombinedSigInternal *)
Definition combine_sig (pa : path) (hashed randomness : bytes) (key presig : transcript) (threshold : Z)
  (shares : list (Z * sig_share)) : res signature :=
  if Z.of_nat (List.length shares) <? threshold then Err
  else
    do r <- derive_rho hashed randomness pa key presig;
    do _ <- go_make threshold;
    let taken := if threshold <=? 0 then [] else shares in
    do cs <- lagrange_at_zero (map fst taken);
    do num <- interpolate_scalar cs (flat_map (fun e => num_sample (snd e)) taken);
    do den <- interpolate_scalar cs (flat_map (fun e => den_sample (snd e)) taken);
    let sigma := fmul num (finv den) in
    Ok (mksig (ro_rho r) (if is_high sigma then fneg sigma else sigma)).

(** sign/combined_sig.go:68-98 Verify *)
Definition sig_verify (t : signature) (pa : path) (hashed randomness : bytes) (key presig : transcript) : res unit :=
  if feqb (sg_r t) fzero || feqb (sg_s t) fzero then Err
  else
    do msg <- hash_to_integer hashed;
    do r <- derive_rho hashed randomness pa key presig;
    if negb (feqb (sg_r t) (ro_rho r)) || is_high (sg_s t) then Err
    else
      do mk <- tr_constant_term key;
      let pk := gadd (mul_by_g (ro_tweak r)) mk in
      let si := finv (sg_s t) in
      let rp := mul_points genG (fmul msg si) pk (fmul (sg_r t) si) in
      if is_infinity rp then Err
      else guard (feqb (affx rp) (affx (ro_presig r))).
End Sign.
