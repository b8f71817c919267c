(** Scalar polynomials and Lagrange coefficients: poly/poly.go, poly/lagrange.go.
    A polynomial is its coefficient slice, constant term first. The curve
    field of the Go structs is always K256 and is left out. *)
From Coq Require Import ZArith Lia Bool String List.
From Verif Require Import Base Zmod Fields ModelScalar ModelXmd ModelRo.
Import ListNotations.
Open Scope Z_scope.

(** poly/poly.go:16-19 Polynomial *)
Definition poly := list Fq.

(** poly/poly.go:68-73 Coeff (non-negative index) *)
Definition coeff (p : poly) (i : nat) : Fq := nth i p fzero.

(** poly/poly.go:76-84 NonZeroCoefficients *)
Definition non_zero_coefficients (p : poly) : nat :=
  (length p - length (filter (fun c => feqb c fzero) p))%nat.

(** poly/poly.go:85-91 IsZero *)
Definition poly_is_zero (p : poly) : bool := Nat.eqb (non_zero_coefficients p) 0.

(** poly/poly.go:94-104 Add (the receiver is overwritten with the result) *)
Definition poly_add (l r : poly) : poly :=
  map (fun i => fadd (coeff l i) (coeff r i)) (seq 0 (Nat.max (length l) (length r))).

(** coeffs[k] = coeffs[k] + v; poly/poly.go:115-118 *)
Fixpoint add_at (l : list Fq) (k : nat) (v : Fq) : list Fq :=
  match l, k with
  | [], _ => []
  | c :: l, O => fadd c v :: l
  | c :: l, S k => c :: add_at l k v
  end.

(** poly/poly.go:107-122 Mul *)
Fixpoint mul_row (acc : list Fq) (k : nat) (ca : Fq) (r : poly) : list Fq :=
  match r with
  | [] => acc
  | cb :: r => mul_row (add_at acc k (fmul ca cb)) (S k) ca r
  end.
(** poly/poly.go:114-119, the outer loop of Mul *)
Fixpoint mul_rows (acc : list Fq) (k : nat) (l r : poly) : list Fq :=
  match l with
  | [] => acc
  | ca :: l => mul_rows (mul_row acc k ca r) (S k) l r
  end.
(** poly/poly.go:107-122 Mul *)
Definition poly_mul (l r : poly) : poly :=
  mul_rows (repeat fzero (Nat.max (length l + length r) 1 - 1)) 0 l r.

(** poly/poly.go:124-131 MulScalar: [recv.MulScalar(lhs, s)].  The loop runs
    over the length of lhs but reads the receiver's coefficients. *)
Definition poly_mul_scalar (recv lhs : poly) (s : Fq) : res poly :=
  if (length recv <? length lhs)%nat then Panic
  else Ok (map (fun i => fmul (coeff recv i) s) (seq 0 (length lhs))).

(** poly/poly.go:137-149 EvaluateAt (Horner, from the top coefficient down) *)
Definition evaluate_at (p : poly) (x : Fq) : Fq :=
  match rev p with
  | [] => fzero
  | c :: l => fold_left (fun ans c => fadd (fmul ans x) c) l c
  end.

(** poly/poly.go:151-162 Equal *)
Definition poly_equal (l r : poly) : bool :=
  forallb (fun i => feqb (coeff l i) (coeff r i)) (seq 0 (Nat.max (length l) (length r))).

(** poly/poly.go:174-187: loop of Interpolate over the remaining samples, with
    the current polynomial and base. base.MulScalar(base, diff) has receiver
    equal to argument. *)
Fixpoint interpolate_loop (ss : list (Fq * Fq)) (po base : poly) : res poly :=
  match ss with
  | [] => Ok po
  | (x, y) :: ss =>
    let diff := fsub y (evaluate_at po x) in
    let inv := finv (evaluate_at base x) in
    if feqb inv fzero then Err
    else
      let diff := fmul diff inv in
      do base <- poly_mul_scalar base base diff;
      let po := poly_add po base in
      let base := poly_mul base [fneg x; fone] in
      interpolate_loop ss po base
  end.

(** poly/poly.go:165-189 Interpolate *)
Definition interpolate (ss : list (Fq * Fq)) : res poly :=
  match ss with
  | [] => Ok []
  | (x0, y0) :: ss => interpolate_loop ss [y0] [fneg x0; fone]
  end.

(** ** poly/lagrange.go *)

(** poly/lagrange.go:73-82 checkForDuplicates *)
Fixpoint check_dups (l : list Z) : bool :=
  match l with
  | [] => true
  | i :: l => negb (existsb (Z.eqb i) l) && check_dups l
  end.

(** poly/lagrange.go:106-112: numerator[i] = product of (x_k - v) for k < i *)
Fixpoint prefix_prods (v tmp : Fq) (xs : list Fq) : list Fq :=
  match xs with
  | [] => []
  | x :: xs => tmp :: prefix_prods v (fmul tmp (fsub x v)) xs
  end.
(** poly/lagrange.go:114-119: the factors product of (x_k - v) for k > i that
    the second loop multiplies in; first component is the product of all *)
Fixpoint suffix_prods (v : Fq) (xs : list Fq) : Fq * list Fq :=
  match xs with
  | [] => (fone, [])
  | x :: xs => let '(t, l) := suffix_prods v xs in (fmul t (fsub x v), t :: l)
  end.
(** poly/lagrange.go:122-129 *)
Definition denominator (xi : Fq) (xs : list Fq) : Fq :=
  fold_left (fun denom xj => if feqb xi xj then denom else fmul denom (fsub xj xi)) xs fone.

(** poly/lagrange.go:88-140 AtValue *)
Definition lagrange_at_value (v : Fq) (samples : list Z) : res (list Fq) :=
  match samples with
  | [] => Err
  | [_] => Ok [fone]
  | _ =>
    if negb (check_dups samples) then Err
    else
      let xs := map from_node_index samples in
      let numerator := map (fun '(a, b) => fmul a b)
                           (combine (prefix_prods v fone xs) (snd (suffix_prods v xs))) in
      mapM (fun '(n, xi) => let inv := finv (denominator xi xs) in
                            if feqb inv fzero then Err else Ok (fmul n inv))
           (combine numerator xs)
  end.
(** poly/lagrange.go:84-86 AtZero *)
Definition lagrange_at_zero (samples : list Z) : res (list Fq) := lagrange_at_value fzero samples.

(** poly/lagrange.go:61-72 InterpolateScalar *)
Definition interpolate_scalar (cs ys : list Fq) : res Fq :=
  if negb (Nat.eqb (length ys) (length cs)) then Err
  else match cs with
       | [] => Panic
       | _ => Ok (fold_left (fun r cy => fadd r (fmul (snd cy) (fst cy))) (combine cs ys) fzero)
       end.

Section Rand.
Context {X : Oracles}.
(** poly/poly.go:37-39, 53-57: [n] coefficients drawn from the generator *)
Fixpoint random_scalars (n : nat) (r : rng) : res (list Fq * rng) :=
  match n with
  | O => Ok ([], r)
  | S n => do s <- random_scalar r; let '(s, r) := s in
           do l <- random_scalars n r; let '(l, r) := l in Ok (s :: l, r)
  end.
(** poly/poly.go:35-44 Random; make with a negative length panics *)
Definition poly_random (num : Z) (r : rng) : res (poly * rng) :=
  if num <? 0 then Panic else random_scalars (Z.to_nat num) r.
(** poly/poly.go:46-62 RandomWithConstant *)
Definition poly_random_with_constant (c : Fq) (num : Z) (r : rng) : res (poly * rng) :=
  if num =? 0 then Err
  else if num <? 0 then Panic
  else do l <- random_scalars (Z.to_nat num - 1) r; let '(l, r) := l in Ok (c :: l, r).
End Rand.
