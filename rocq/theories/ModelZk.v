(** Zero-knowledge proofs: zk/dlog.go, zk/equal_opening.go, zk/product.go. *)
From Coq Require Import ZArith Lia Bool String List.
From Verif Require Import Base Zmod Fields ModelScalar ModelXmd ModelRo ModelPoly ModelGroup.
Import ListNotations.
Open Scope Z_scope.

(** zk/equal_opening.go:10-14 *)
Definition dlog_dst := str "ic-crypto-tecdsa-zk-proof-of-dlog-eq".
(** zk/equal_opening.go:12 *)
Definition eqo_dst := str "ic-crypto-tecdsa-zk-proof-of-equal-openings".
(** zk/equal_opening.go:13 *)
Definition prod_dst := str "ic-crypto-tecdsa-zk-proof-of-product".

Section Zk.
Context {X : Oracles} {GO : Grp}.

(** a value computed with an ignored error is nil and the next use of it panics; no Go counterpart: what follows an ignored error, as at zk/dlog.go:104-121 *)
Definition or_panic {A} (r : res A) : res A := match r with Err => Panic | r => r end.

(** ** zk/dlog.go *)
(** zk/dlog.go:16-19 ProofOfDLogEquivalence *)
Record dlog_proof := mkdlog { dl_challenge : Fq; dl_response : Fq }.

(** zk/dlog.go:59-69 HashToChallenge: oracle contents *)
Definition dlog_ro (g h gx hx c1 c2 : G) (ad : bytes) : ro :=
  add_point "commitment2" c2
  (add_point "commitment1" c1
  (add_point "instance_h_x" hx
  (add_point "instance_g_x" gx
  (add_point "instance_h" h
  (add_point "instance_g" g
  (add_bytes "associated_data" ad (new_ro dlog_dst))))))).
(** zk/dlog.go:59-69 HashToChallenge *)
Definition dlog_challenge (g h gx hx c1 c2 : G) (ad : bytes) : res Fq :=
  ro_output_scalar (dlog_ro g h gx hx c1 c2 ad).

(** zk/dlog.go:79-94 Create (FromWitness 29-39 inlined); the error of
    HashToChallenge is not checked *)
Definition dlog_create (seed : bytes) (x : Fq) (g h : G) (ad : bytes) : res dlog_proof :=
  let gx := smul x g in
  let hx := smul x h in
  do rn <- seed_rng seed;
  do r <- random_scalar rn; let r := fst r in
  do c <- or_panic (dlog_challenge g h gx hx (smul r g) (smul r h) ad);
  Ok (mkdlog c (fadd (fmul x c) r)).

(** zk/dlog.go:51-57 RecoverCommitments *)
Definition dlog_recover (g h gx hx : G) (pf : dlog_proof) : G * G :=
  (gsub (smul (dl_response pf) g) (smul (dl_challenge pf) gx),
   gsub (smul (dl_response pf) h) (smul (dl_challenge pf) hx)).
(** zk/dlog.go:104-121 Verify *)
Definition dlog_verify (pf : dlog_proof) (g h gx hx : G) (ad : bytes) : res unit :=
  let '(rg, rh) := dlog_recover g h gx hx pf in
  do c <- dlog_challenge g h gx hx rg rh ad;
  guard (feqb c (dl_challenge pf)).

(** ** zk/equal_opening.go *)
(** zk/equal_opening.go:20-23 ProofOfEqualOpenings *)
Record eqo_proof := mkeqo { eo_challenge : Fq; eo_response : Fq }.

(** zk/equal_opening.go:102-111 HashToChallenge *)
Definition eqo_ro (g h a b c : G) (ad : bytes) : ro :=
  add_point "commitment" c
  (add_point "instance_b" b
  (add_point "instance_a" a
  (add_point "instance_h" h
  (add_point "instance_g" g
  (add_bytes "associated_data" ad (new_ro eqo_dst)))))).
(** zk/equal_opening.go:102-111 HashToChallenge *)
Definition eqo_challenge (g h a b c : G) (ad : bytes) : res Fq := ro_output_scalar (eqo_ro g h a b c ad).

(** zk/equal_opening.go:63-83 Create (FromWitness 35-48 inlined) *)
Definition eqo_create (seed : bytes) (secret masking : Fq) (ad : bytes) : res eqo_proof :=
  let a := pedersen secret masking in
  let b := mul_by_g secret in
  do rn <- seed_rng seed;
  do r <- random_scalar rn; let r := fst r in
  do c <- eqo_challenge genG genH a b (smul r genH) ad;
  Ok (mkeqo c (fadd (fmul masking c) r)).

(** zk/equal_opening.go:85-100 RecoverCommitments *)
Definition eqo_recover (h a b : G) (pf : eqo_proof) : G :=
  gsub (smul (eo_response pf) h) (smul (eo_challenge pf) (gsub a b)).
(** zk/equal_opening.go:113-124 Verify *)
Definition eqo_verify (pf : eqo_proof) (ped simple : G) (ad : bytes) : res unit :=
  do c <- eqo_challenge genG genH ped simple (eqo_recover genH ped simple pf) ad;
  guard (feqb (eo_challenge pf) c).

(** ** zk/product.go *)
(** zk/product.go:15-19 ProofOfProduct *)
Record prod_proof := mkprod { pr_challenge : Fq; pr_response1 : Fq; pr_response2 : Fq }.

(** zk/product.go:91-102 HashToChallenge (with the domain separator of the
    equal-openings proof, as in the code) *)
Definition prod_ro (g h l r pr c1 c2 : G) (ad : bytes) : ro :=
  add_point "commitment2" c2
  (add_point "commitment1" c1
  (add_point "instance_product" pr
  (add_point "instance_rhs" r
  (add_point "instance_lhs" l
  (add_point "instance_h" h
  (add_point "instance_g" g
  (add_bytes "associated_data" ad (new_ro eqo_dst)))))))).
(** zk/product.go:91-102 HashToChallenge *)
Definition prod_challenge (g h l r pr c1 c2 : G) (ad : bytes) : res Fq :=
  ro_output_scalar (prod_ro g h l r pr c1 c2 ad).

(** zk/product.go:68-89 Create (FromWitness 30-45 inlined) *)
Definition prod_create (seed : bytes) (lhs rhs rhs_mask product product_mask : Fq) (ad : bytes) : res prod_proof :=
  let lc := smul lhs genG in
  let rc := mul_points genG rhs genH rhs_mask in
  let pc := mul_points genG product genH product_mask in
  do rn <- seed_rng seed;
  do r1 <- random_scalar rn; let '(r1, rn) := r1 in
  do r2 <- random_scalar rn; let r2 := fst r2 in
  do c <- prod_challenge genG genH lc rc pc (smul r1 genG) (mul_points rc r1 genH r2) ad;
  Ok (mkprod c (fadd (fmul lhs c) r1)
             (fadd (fmul (fsub product_mask (fmul lhs rhs_mask)) c) r2)).

(** zk/product.go:60-66 RecoverCommitment *)
Definition prod_recover (h l r pr : G) (pf : prod_proof) : G * G :=
  (gsub (mul_by_g (pr_response1 pf)) (smul (pr_challenge pf) l),
   gsub (mul_points r (pr_response1 pf) h (pr_response2 pf)) (smul (pr_challenge pf) pr)).
(** zk/product.go:104-115 Verify *)
Definition prod_verify (pf : prod_proof) (l r pr : G) (ad : bytes) : res unit :=
  let '(c1, c2) := prod_recover genH l r pr pf in
  do c <- prod_challenge genG genH l r pr c1 c2 ad;
  guard (feqb (pr_challenge pf) c).
End Zk.
