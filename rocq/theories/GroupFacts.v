(** Consequences of the group laws and a decision procedure for linear
    identities between points. *)
From Coq Require Import ZArith Lia Bool String List Ring Field.
From Verif Require Import Base BaseFacts Zmod Fields ModelScalar ProofScalar ModelXmd ModelRo ModelGroup SpecPoly ProofPoly.
Import ListNotations.
Open Scope Z_scope.

Section Facts.
Context {GO : Grp} {GL : GrpLaws GO}.

Lemma gadd_0_r (a : G) : gadd a gzero = a.
Proof. rewrite gadd_comm. apply gadd_0_l. Qed.
Lemma gadd_cancel_l (a b c : G) : gadd a b = gadd a c -> b = c.
Proof.
  intros H. rewrite <- (gadd_0_l b), <- (gadd_0_l c), <- (gadd_neg a), (gadd_comm a (gneg a)).
  rewrite <- !gadd_assoc, H. reflexivity.
Qed.
Lemma smul_zero (a : G) : smul fzero a = gzero.
Proof.
  apply (gadd_cancel_l (smul fzero a)). rewrite gadd_0_r, <- smul_add.
  assert (E : fadd fzero fzero = (fzero : Fq)) by ring. rewrite E. reflexivity.
Qed.
Lemma smul_gzero x : smul x gzero = gzero.
Proof.
  apply (gadd_cancel_l (smul x gzero)). rewrite gadd_0_r, <- smul_gadd, gadd_0_l. reflexivity.
Qed.
Lemma gneg_smul (a : G) : gneg a = smul (fneg fone) a.
Proof.
  apply (gadd_cancel_l a). rewrite gadd_neg. rewrite <- (smul_1 a) at 1.
  rewrite <- smul_add, <- (smul_zero a).
  assert (E : fadd fone (fneg fone) = (fzero : Fq)) by ring. rewrite E. reflexivity.
Qed.
Lemma geqb_refl (a : G) : geqb a a = true. Proof. apply geqb_iff. reflexivity. Qed.
Lemma geqb_false (a b : G) : geqb a b = false <-> a <> b.
Proof.
  split.
  - intros H E. apply geqb_iff in E. congruence.
  - intros H. destruct (geqb a b) eqn:E; [|reflexivity]. apply geqb_iff in E. contradiction.
Qed.
Lemma g_dec (a b : G) : {a = b} + {a <> b}.
Proof. destruct (geqb a b) eqn:E; [left; apply geqb_iff, E|right; apply geqb_false, E]. Qed.

Lemma smul_eq0 x (a : G) : smul x a = gzero -> x = fzero \/ a = gzero.
Proof.
  intros H. destruct (fe_dec _ x fzero) as [E|E]; [left; exact E|right].
  rewrite <- (smul_1 a), <- (finv_l q_prime x E), smul_mul, H. apply smul_gzero.
Qed.
Lemma smul_inj_l x y (a : G) : a <> gzero -> smul x a = smul y a -> x = y.
Proof.
  intros Ha H. apply fsub_zero.
  destruct (smul_eq0 (fsub x y) a) as [E|E]; [|exact E|contradiction].
  assert (fsub x y = fadd x (fmul (fneg fone) y)) as -> by ring.
  rewrite smul_add, smul_mul, H, <- gneg_smul. apply gadd_neg.
Qed.
Lemma mul_by_g_inj x y : mul_by_g x = mul_by_g y -> x = y.
Proof. apply smul_inj_l, genG_nz. Qed.

(** ** linear identities *)
Inductive gexp :=
| Eat (n : nat) | Ezero | Eadd (a b : gexp) | Eneg (a : gexp) | Esub (a b : gexp) | Esm (x : Fq) (a : gexp).

Fixpoint gden (env : list G) (e : gexp) : G :=
  match e with
  | Eat n => nth n env gzero
  | Ezero => gzero
  | Eadd a b => gadd (gden env a) (gden env b)
  | Eneg a => gneg (gden env a)
  | Esub a b => gsub (gden env a) (gden env b)
  | Esm x a => smul x (gden env a)
  end.
Fixpoint gcoef (i : nat) (e : gexp) : Fq :=
  match e with
  | Eat n => if Nat.eqb n i then fone else fzero
  | Ezero => fzero
  | Eadd a b => fadd (gcoef i a) (gcoef i b)
  | Eneg a => fmul (fneg fone) (gcoef i a)
  | Esub a b => fsub (gcoef i a) (gcoef i b)
  | Esm x a => fmul x (gcoef i a)
  end.
Fixpoint glin (f : nat -> Fq) (k : nat) (env : list G) : G :=
  match env with [] => gzero | P :: env => gadd (smul (f k) P) (glin f (S k) env) end.
Lemma glin_add f g env : forall k, glin (fun i => fadd (f i) (g i)) k env = gadd (glin f k env) (glin g k env).
Proof.
  induction env as [|P env IH]; intros k; cbn [glin]; [symmetry; apply gadd_0_l|].
  rewrite IH, smul_add, !gadd_assoc. f_equal. rewrite <- !gadd_assoc. f_equal. apply gadd_comm.
Qed.
Lemma glin_scale x f env : forall k, glin (fun i => fmul x (f i)) k env = smul x (glin f k env).
Proof.
  induction env as [|P env IH]; intros k; cbn [glin]; [symmetry; apply smul_gzero|].
  rewrite IH, smul_mul, smul_gadd. reflexivity.
Qed.
Lemma glin_ext f g env : forall k, (forall i, f i = g i) -> glin f k env = glin g k env.
Proof. induction env as [|P env IH]; intros k H; cbn [glin]; [reflexivity|]. rewrite H, (IH (S k) H). reflexivity. Qed.
Lemma glin_zero env : forall k, glin (fun _ => fzero) k env = gzero.
Proof. induction env as [|P env IH]; intros k; cbn [glin]; [reflexivity|]. rewrite IH, smul_zero. apply gadd_0_l. Qed.
Lemma glin_above k env : forall m, (k < m)%nat -> glin (fun i => if Nat.eqb k i then fone else fzero) m env = gzero.
Proof.
  induction env as [|Q env IH]; intros m Hm; cbn [glin]; [reflexivity|].
  rewrite IH by lia. destruct (Nat.eqb_spec k m); [lia|]. rewrite smul_zero. apply gadd_0_l.
Qed.
Lemma glin_at env : forall k n, glin (fun i => if Nat.eqb (k + n) i then fone else fzero) k env = nth n env gzero.
Proof.
  induction env as [|P env IH]; intros k n; cbn [glin]; [destruct n; reflexivity|].
  destruct n as [|n].
  - rewrite Nat.add_0_r, Nat.eqb_refl, smul_1. cbn [nth].
    rewrite glin_above by lia. apply gadd_0_r.
  - destruct (Nat.eqb_spec (k + S n) k); [lia|]. rewrite smul_zero, gadd_0_l. cbn [nth].
    rewrite <- (IH (S k) n). apply glin_ext. intros i. rewrite Nat.add_succ_r. reflexivity.
Qed.
Lemma gden_lin env e : gden env e = glin (fun i => gcoef i e) 0 env.
Proof.
  induction e; cbn [gden gcoef].
  - symmetry. apply (glin_at env 0 n).
  - symmetry. apply glin_zero.
  - rewrite glin_add, IHe1, IHe2. reflexivity.
  - rewrite glin_scale, gneg_smul, IHe. reflexivity.
  - unfold gsub. rewrite gneg_smul, IHe1, IHe2, <- glin_scale, <- glin_add. apply glin_ext. intros i. ring.
  - rewrite glin_scale, IHe. reflexivity.
Qed.
Fixpoint all_upto (n : nat) (k : nat) (P : nat -> Prop) : Prop :=
  match n with O => True | S n => P k /\ all_upto n (S k) P end.
Lemma gring_correct env e1 e2 :
  all_upto (List.length env) 0 (fun i => gcoef i e1 = gcoef i e2) -> gden env e1 = gden env e2.
Proof.
  rewrite !gden_lin. generalize 0%nat. induction env as [|P env IH]; intros k H; cbn [glin]; [reflexivity|].
  cbn [List.length all_upto] in H. destruct H as [H1 H2]. rewrite H1, (IH (S k) H2). reflexivity.
Qed.
End Facts.

Ltac g_mem a l :=
  match l with
  | nil => constr:(false)
  | cons a _ => constr:(true)
  | cons _ ?l => g_mem a l
  end.
Ltac g_atoms e env :=
  lazymatch e with
  | gadd ?a ?b => let env := g_atoms a env in g_atoms b env
  | gsub ?a ?b => let env := g_atoms a env in g_atoms b env
  | gneg ?a => g_atoms a env
  | smul _ ?a => g_atoms a env
  | gzero => env
  | _ => let m := g_mem e env in
         lazymatch m with true => env | false => constr:(cons e env) end
  end.
Ltac g_idx a l :=
  lazymatch l with
  | cons a _ => constr:(O)
  | cons _ ?l => let n := g_idx a l in constr:(S n)
  end.
Ltac g_reify e env :=
  lazymatch e with
  | gadd ?a ?b => let x := g_reify a env in let y := g_reify b env in constr:(Eadd x y)
  | gsub ?a ?b => let x := g_reify a env in let y := g_reify b env in constr:(Esub x y)
  | gneg ?a => let x := g_reify a env in constr:(Eneg x)
  | smul ?s ?a => let x := g_reify a env in constr:(Esm s x)
  | gzero => constr:(Ezero)
  | _ => let n := g_idx e env in constr:(Eat n)
  end.
(** proves linear identities between points, leaving scalar identities that
    [ring] does not close *)
Ltac gring_pre :=
  unfold pedersen, mul_points, mul_by_g, gdbl;
  lazymatch goal with
  | |- @eq ?T ?l ?r =>
    let env := g_atoms l (@nil T) in
    let env := g_atoms r env in
    let a := g_reify l env in
    let b := g_reify r env in
    change (gden env a = gden env b);
    apply gring_correct; cbn [List.length all_upto gcoef Nat.eqb]
  end.
Ltac gring := gring_pre; repeat (apply conj; [try ring|]); exact I.
