(** Faster evaluation of the group law, for tests: the inverse by Euclid's
    algorithm, used only if the product confirms it. *)
From Coq Require Import ZArith Lia Bool List Ring Field.
From Verif Require Import Base BaseFacts Zmod Fields ModelSecp ProofFp.
Import ListNotations.
Open Scope Z_scope.

Local Opaque finv fpow.
Fixpoint egcd (n : nat) (a b u v : Z) : Z :=
  match n with
  | O => u
  | S n => if b =? 0 then u else let (q, r) := Z.div_eucl a b in egcd n b r v (u - q * v)
  end.
Definition fast_inv (a : Fp) : Fp :=
  let r := of_Z p (egcd 400 p (fv a) 0 1) in if feqb (fmul r a) fone then r else finv a.
Lemma fast_inv_eq a : fast_inv a = finv a.
Proof.
  unfold fast_inv. generalize (of_Z p (egcd 400 p (fv a) 0 1)). intros r. cbv zeta.
  destruct (feqb (fmul r a) fone) eqn:E; [|reflexivity]. apply (proj1 (feqb_eq _ _ _)) in E.
  assert (N : a <> fzero).
  { intros ->. apply (f_equal fv) in E. replace (fmul r fzero) with (fzero : Fp) in E by ring. discriminate E. }
  transitivity (fmul (fmul r a) (finv a)); [field; exact N|].
  transitivity (fmul fone (finv a)); [|ring]. apply (f_equal (fun z => fmul z (finv a))). exact E.
Qed.
Definition fast_add (a b : pt) : pt :=
  match a, b with
  | None, _ => b
  | _, None => a
  | Some (x1, y1), Some (x2, y2) =>
    if feqb x1 x2 then
      if feqb y1 y2 && negb (feqb y1 fzero) then
        let l := fmul (fmul (of_Z p 3) (fmul x1 x1)) (fast_inv (fmul (of_Z p 2) y1)) in
        let x3 := fsub (fmul l l) (fmul (of_Z p 2) x1) in
        Some (x3, fsub (fmul l (fsub x1 x3)) y1)
      else None
    else
      let l := fmul (fsub y2 y1) (fast_inv (fsub x2 x1)) in
      let x3 := fsub (fsub (fmul l l) x1) x2 in
      Some (x3, fsub (fmul l (fsub x1 x3)) y1)
  end.
Lemma fast_add_eq a b : fast_add a b = pt_add a b.
Proof. destruct a as [[x1 y1]|], b as [[x2 y2]|]; try reflexivity. unfold fast_add, pt_add. rewrite !fast_inv_eq. reflexivity. Qed.
Fixpoint fast_mul_pos (n : positive) (a : pt) : pt :=
  match n with
  | xH => a
  | xO n => let r := fast_mul_pos n a in fast_add r r
  | xI n => let r := fast_mul_pos n a in fast_add a (fast_add r r)
  end.
Definition fast_mul (s : Fq) (a : pt) : pt :=
  match fv s with Zpos n => fast_mul_pos n a | _ => None end.
Lemma fast_mul_eq s a : fast_mul s a = pt_mul s a.
Proof.
  unfold fast_mul, pt_mul. destruct (fv s) as [|n|n]; try reflexivity.
  induction n as [n IH|n IH|]; cbn [fast_mul_pos pt_mul_pos]; rewrite ?IH, ?fast_add_eq; reflexivity.
Qed.
