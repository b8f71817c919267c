(** Memory-level model.  In the Go code a scalar, a point or a polynomial is a
    pointer to a mutable cell, and arithmetic methods write their receiver.
    The other model files work with values; this file transcribes the same
    functions with explicit cells, so that sharing of pointers between
    arguments, receivers and results is visible.

    The memory is a list of cells, a pointer an index into it, and allocation
    appends a cell.  Reading or writing through a pointer that does not denote
    a cell of the right kind (the nil pointer) panics.  Slices are lists of
    pointers: the code below writes slice elements only in slices it has just
    made, so slices themselves need no cells. *)
From Coq Require Import ZArith Lia Bool String List.
From Verif Require Import Base Zmod Fields ModelScalar ModelXmd ModelRo ModelPoly ModelGroup ModelCommit ModelZk ModelMega
  ModelDealing ModelKey ModelSign.
Import ListNotations.
Open Scope Z_scope.

(** no Go counterpart: the memory model *)
Definition ptr := nat.

Section Heap.
Context {X : Oracles} {GO : Grp}.

(** the kinds of memory cells, each cited below (curve/*.go, poly/poly.go) *)
Inductive cell :=
| VS (v : Fq)            (* curve/k256_scalar.go:18-20 Secp256k1Scalar *)
| VP (P : G)             (* curve/k256_point.go:19-21 Secp256k1Point *)
| VQ (cs : list ptr)     (* poly/poly.go:16-19 Polynomial: its coefficients slice *)
| VF (v : Fp).           (* curve/k256_fe.go:17-19 Secp256k1Field *)

(** no Go counterpart: the memory model *)
Definition heap := list cell.
(** no Go counterpart: the memory model *)
Definition get (h : heap) (p : ptr) : option cell := nth_error h p.
(** no Go counterpart: the memory model *)
Fixpoint upd (h : heap) (p : ptr) (c : cell) : heap :=
  match h, p with
  | [], _ => []
  | _ :: h, O => c :: h
  | d :: h, S p => d :: upd h p c
  end.

(** A computation ends in a memory and an outcome; no Go counterpart: the memory model *)
Definition M (A : Type) := heap -> heap * res A.
(** no Go counterpart: the memory model *)
Definition hret {A} (a : A) : M A := fun h => (h, Ok a).
(** no Go counterpart: the memory model *)
Definition herr {A} : M A := fun h => (h, Err).
(** no Go counterpart: the memory model *)
Definition hpanic {A} : M A := fun h => (h, Panic).
(** no Go counterpart: the memory model *)
Definition hbind {A B} (m : M A) (k : A -> M B) : M B := fun h =>
  match m h with
  | (h', Ok a) => k a h'
  | (h', Err) => (h', Err)
  | (h', Panic) => (h', Panic)
  | (h', Diverge) => (h', Diverge)
  end.
(** a computation that does not touch memory; no Go counterpart: the memory model *)
Definition hlift {A} (r : res A) : M A := fun h => (h, r).
Notation "'let!' x := m 'in' k" := (hbind m (fun x => k)) (at level 200, x name, m at level 100, k at level 200).
Notation "m ;; k" := (hbind m (fun _ => k)) (at level 199, right associativity).

(** no Go counterpart: the memory model *)
Fixpoint hmap {A B} (f : A -> M B) (l : list A) : M (list B) :=
  match l with
  | [] => hret []
  | a :: l => let! b := f a in let! bs := hmap f l in hret (b :: bs)
  end.

(** ** Cells *)
(** no Go counterpart: the memory model *)
Definition alloc (c : cell) : M ptr := fun h => (h ++ [c], Ok (List.length h)).
(** reading the scalar of curve/k256_scalar.go:18-20 *)
Definition load_s (p : ptr) : M Fq := fun h => match get h p with Some (VS v) => (h, Ok v) | _ => (h, Panic) end.
(** reading the point of curve/k256_point.go:19-21 *)
Definition load_p (p : ptr) : M G := fun h => match get h p with Some (VP v) => (h, Ok v) | _ => (h, Panic) end.
(** reading the coefficients of poly/poly.go:16-19 *)
Definition load_q (p : ptr) : M (list ptr) := fun h => match get h p with Some (VQ v) => (h, Ok v) | _ => (h, Panic) end.
(** writing the scalar of curve/k256_scalar.go:18-20 *)
Definition store_s (p : ptr) (v : Fq) : M ptr := fun h => match get h p with Some (VS _) => (upd h p (VS v), Ok p) | _ => (h, Panic) end.
(** writing the point of curve/k256_point.go:19-21 *)
Definition store_p (p : ptr) (v : G) : M ptr := fun h => match get h p with Some (VP _) => (upd h p (VP v), Ok p) | _ => (h, Panic) end.
(** writing the coefficients of poly/poly.go:16-19 *)
Definition store_q (p : ptr) (v : list ptr) : M ptr := fun h => match get h p with Some (VQ _) => (upd h p (VQ v), Ok p) | _ => (h, Panic) end.

(** ** Scalars: curve/k256_scalar.go *)
(** curve/k256_scalar.go:33-37, 39-43, 45-49: Zero, One, FromUint64 (here: any given value) *)
Definition s_new (v : Fq) : M ptr := alloc (VS v).
(** curve/k256_scalar.go:63-82 Add, Sub, Mul: the receiver is written after both operands are read *)
Definition s_add (recv l r : ptr) : M ptr := let! a := load_s l in let! b := load_s r in store_s recv (fadd a b).
(** curve/k256_scalar.go:63-82 Sub *)
Definition s_sub (recv l r : ptr) : M ptr := let! a := load_s l in let! b := load_s r in store_s recv (fsub a b).
(** curve/k256_scalar.go:63-82 Mul *)
Definition s_mul (recv l r : ptr) : M ptr := let! a := load_s l in let! b := load_s r in store_s recv (fmul a b).
(** curve/k256_scalar.go:84-88 Invert *)
Definition s_invert (recv o : ptr) : M ptr := let! a := load_s o in store_s recv (finv a).
(** curve/k256_scalar.go:90-94 Negate *)
Definition s_negate (recv o : ptr) : M ptr := let! a := load_s o in store_s recv (fneg a).
(** curve/k256_scalar.go:101-105 Assign *)
Definition s_assign (recv o : ptr) : M ptr := let! a := load_s o in store_s recv a.
(** curve/k256_scalar.go:107-109 Clone *)
Definition s_clone (o : ptr) : M ptr := let! z := s_new fzero in s_assign z o.
(** curve/k256_scalar.go:96-100 Equal *)
Definition s_equal (a b : ptr) : M bool := let! x := load_s a in let! y := load_s b in hret (feqb x y).
(** curve/k256_scalar.go:123-125 IsZero *)
Definition s_is_zero (a : ptr) : M bool := let! x := load_s a in hret (feqb x fzero).
(** curve/k256_scalar.go:127-130 IsHigh *)
Definition s_is_high (a : ptr) : M bool := let! x := load_s a in hret (is_high x).

(** ** Points: curve/k256_point.go *)
(** curve/k256_point.go:27-29, 36-38 NewK256G, Identity *)
Definition p_new (P : G) : M ptr := alloc (VP P).
(** curve/k256_point.go:102-114 AddPoints, SubPoints *)
Definition p_add (recv l r : ptr) : M ptr := let! a := load_p l in let! b := load_p r in store_p recv (gadd a b).
(** curve/k256_point.go:109-114 SubPoints *)
Definition p_sub (recv l r : ptr) : M ptr := let! a := load_p l in let! b := load_p r in store_p recv (gsub a b).
(** curve/k256_point.go:116-120 Double *)
Definition p_double (recv o : ptr) : M ptr := let! a := load_p o in store_p recv (gdbl a).
(** curve/k256_point.go:122-126 Clone *)
Definition p_clone (o : ptr) : M ptr := let! a := load_p o in p_new a.
(** curve/k256_point.go:128-133 ScalarMul *)
Definition p_scalar_mul (recv o s : ptr) : M ptr := let! a := load_p o in let! x := load_s s in store_p recv (smul x a).
(** curve/k256_point.go:170-172 Equal *)
Definition p_equal (a b : ptr) : M bool := let! x := load_p a in let! y := load_p b in hret (geqb x y).
(** curve/k256_point.go:134-145 MulByNodeIndex: double and add in a fresh cell *)
Fixpoint p_node_loop (s64 : Z) (n : nat) (s res : ptr) : M ptr :=
  match n with
  | O => hret res
  | S n =>
    let! res := p_double res res in
    let! res := (if Z.odd (Z.shiftr s64 (Z.of_nat n)) then p_add res res s else hret res) in
    p_node_loop s64 n s res
  end.
(** curve/k256_point.go:134-145 MulByNodeIndex *)
Definition p_mul_by_node_index (s : ptr) (i : Z) : M ptr :=
  let s64 := u64 (i64 (i + 1)) in
  let! res := p_new gzero in
  p_node_loop s64 (Z.to_nat (if s64 =? 0 then 0 else Z.log2 s64 + 1)) s res.
(** curve/point.go:80-87 MulPoints with curve/k256_point.go:147-151 LinComb *)
Definition p_mul_points (p1 s1 p2 s2 : ptr) : M ptr :=
  let! r := p_new gzero in
  let! a := load_p p1 in let! x := load_s s1 in let! b := load_p p2 in let! y := load_s s2 in
  store_p r (mul_points a x b y).
(** curve/point.go:89-93 Pedersen *)
Definition p_pedersen (s1 s2 : ptr) : M ptr :=
  let! g := p_new genG in let! h := p_new genH in p_mul_points g s1 h s2.
(** curve/point.go:95-98 MulByG *)
Definition p_mul_by_g (s : ptr) : M ptr := let! g := p_new genG in p_scalar_mul g g s.

(** ** Polynomials: poly/poly.go *)
(** poly/poly.go:21-26 New *)
Definition q_new (cs : list ptr) : M ptr := alloc (VQ cs).
(** poly/poly.go:68-73 Coeff *)
Definition q_coeff (p : ptr) (i : nat) : M ptr :=
  let! cs := load_q p in
  match nth_error cs i with
  | Some c => let! z := s_new fzero in s_assign z c
  | None => s_new fzero
  end.
(** poly/poly.go:76-84 NonZeroCoefficients *)
Definition q_non_zero (p : ptr) : M nat :=
  let! cs := load_q p in
  let! zs := hmap s_is_zero cs in
  hret (List.length cs - List.length (filter (fun b : bool => b) zs))%nat.
(** poly/poly.go:94-104 Add *)
Definition q_add (recv l r : ptr) : M ptr :=
  let! lc := load_q l in let! rc := load_q r in
  let! cs := hmap (fun i => let! x := q_coeff l i in let! y := q_coeff r i in s_add x x y)
                  (seq 0 (Nat.max (List.length lc) (List.length rc))) in
  store_q recv cs.
(** poly/poly.go:115-118, the inner loop of Mul; [k] is i+j.  coeffs[i+j] keeps its pointer. *)
Fixpoint q_mul_row (coeffs : list ptr) (k : nat) (ca : ptr) (rc : list ptr) : M unit :=
  match rc with
  | [] => hret tt
  | cb :: rc =>
    let! z := s_new fzero in
    let! tmp := s_mul z ca cb in
    match nth_error coeffs k with
    | Some c => s_add c c tmp ;; q_mul_row coeffs (S k) ca rc
    | None => hpanic
    end
  end.
(** poly/poly.go:114-119, the outer loop of Mul *)
Fixpoint q_mul_rows (coeffs : list ptr) (k : nat) (lc rc : list ptr) : M unit :=
  match lc with
  | [] => hret tt
  | ca :: lc => q_mul_row coeffs k ca rc ;; q_mul_rows coeffs (S k) lc rc
  end.
(** poly/poly.go:107-122 Mul *)
Definition q_mul (recv l r : ptr) : M ptr :=
  let! lc := load_q l in let! rc := load_q r in
  let! coeffs := hmap (fun _ => s_new fzero) (repeat tt (Nat.max (List.length lc + List.length rc) 1 - 1)) in
  q_mul_rows coeffs 0 lc rc ;;
  store_q recv coeffs.
(** poly/poly.go:124-131 MulScalar; p.coefficients[i] panics beyond the receiver's length *)
Definition q_mul_scalar (recv l s : ptr) : M ptr :=
  let! lc := load_q l in
  let! pc := load_q recv in
  let! cs := hmap (fun i => match nth_error pc i with
                            | Some c => let! z := s_new fzero in s_mul z c s
                            | None => hpanic
                            end) (seq 0 (List.length lc)) in
  store_q recv cs.
(** poly/poly.go:143-147, coefficients from the second highest down *)
Fixpoint q_horner (x ans : ptr) (cs : list ptr) : M ptr :=
  match cs with
  | [] => hret ans
  | c :: cs =>
    let! coeff := s_clone c in
    let! ans := s_mul ans ans x in
    let! ans := s_add ans ans coeff in
    q_horner x ans cs
  end.
(** poly/poly.go:137-149 EvaluateAt *)
Definition q_evaluate_at (p x : ptr) : M ptr :=
  let! cs := load_q p in
  match rev cs with
  | [] => s_new fzero
  | _ :: l => let! ans := q_coeff p (List.length cs - 1) in q_horner x ans l
  end.
(** poly/poly.go:151-162 Equal, stopping at the first difference *)
Fixpoint q_equal_loop (p r : ptr) (is : list nat) : M bool :=
  match is with
  | [] => hret true
  | i :: is =>
    let! x := q_coeff p i in let! y := q_coeff r i in
    let! b := s_equal x y in
    if b then q_equal_loop p r is else hret false
  end.
(** poly/poly.go:151-162 Equal *)
Definition q_equal (p r : ptr) : M bool :=
  let! pc := load_q p in let! rc := load_q r in
  q_equal_loop p r (seq 0 (Nat.max (List.length pc) (List.length rc))).

(** poly/poly.go:174-187 the loop of Interpolate; [poly] and [base] are the two polynomial
    cells, overwritten by their own methods *)
Fixpoint q_interpolate_loop (ss : list (ptr * ptr)) (one poly base : ptr) : M ptr :=
  match ss with
  | [] => hret poly
  | (sx, sy) :: ss =>
    let! x := s_clone sx in
    let! y := s_clone sy in
    let! z := s_new fzero in
    let! e := q_evaluate_at poly x in
    let! diff := s_sub z y e in
    let! inv := q_evaluate_at base x in
    let! inv := s_invert inv inv in
    let! b := s_is_zero inv in
    if b then herr
    else
      let! diff := s_mul diff diff inv in
      let! base := q_mul_scalar base base diff in
      let! poly := q_add poly poly base in
      let! nx := s_negate x x in
      let! f := q_new [nx; one] in
      let! base := q_mul base base f in
      q_interpolate_loop ss one poly base
  end.
(** poly/poly.go:165-189 Interpolate *)
Definition q_interpolate (ss : list (ptr * ptr)) : M ptr :=
  match ss with
  | [] => q_new []
  | (sx, sy) :: ss =>
    let! one := s_new fone in
    let! y0 := s_clone sy in
    let! poly := q_new [y0] in
    let! s0 := s_clone sx in
    let! s0 := s_negate s0 s0 in
    let! b0 := s_clone s0 in
    let! b1 := s_clone one in
    let! base := q_new [b0; b1] in
    q_interpolate_loop ss one poly base
  end.

(** curve/scalar.go:101-109 Random in memory: a fresh cell *)
Fixpoint q_random_coeffs (n : nat) (r : rng) : M (list ptr * rng) :=
  match n with
  | O => hret ([], r)
  | S n =>
    let! s := hlift (random_scalar r) in
    let! c := s_new (fst s) in
    let! l := q_random_coeffs n (snd s) in
    hret (c :: fst l, snd l)
  end.
(** poly/poly.go:46-62 RandomWithConstant: coefficient 0 is the caller's own scalar *)
Definition q_random_with_constant (constant : ptr) (num : Z) (r : rng) : M (ptr * rng) :=
  if num =? 0 then herr
  else if num <? 0 then hpanic
  else
    let! l := q_random_coeffs (Z.to_nat num - 1) r in
    let! p := q_new (constant :: fst l) in
    hret (p, snd l).

(** ** Lagrange coefficients: poly/lagrange.go *)
(** poly/lagrange.go:106-112: numerator[i] for the scalars in order; the last scalar is not
    multiplied in *)
Fixpoint l_prefix (value tmp : ptr) (xs : list ptr) : M (list ptr) :=
  match xs with
  | [] => hret []
  | [_] => let! n := s_clone tmp in hret [n]
  | sx :: xs =>
    let! n := s_clone tmp in
    let! x := s_clone sx in
    let! d := s_sub x x value in
    let! tmp := s_mul tmp tmp d in
    let! ns := l_prefix value tmp xs in
    hret (n :: ns)
  end.
(** poly/lagrange.go:115-119, for scalars and numerators taken from the end: numerator[i-1] is
    multiplied by the product of the differences from i on *)
Fixpoint l_suffix (value tmp : ptr) (xs ns : list ptr) : M unit :=
  match xs, ns with
  | sx :: xs, n :: ns =>
    let! x := s_clone sx in
    let! d := s_sub x x value in
    let! tmp := s_mul tmp tmp d in
    s_mul n n tmp ;;
    l_suffix value tmp xs ns
  | _, _ => hret tt
  end.
(** poly/lagrange.go:123-129 *)
Fixpoint l_denominator (xi denom : ptr) (xs : list ptr) : M ptr :=
  match xs with
  | [] => hret denom
  | sx :: xs =>
    let! xj := s_clone sx in
    let! b := s_equal xi xj in
    if b then l_denominator xi denom xs
    else
      let! diff := s_sub xj xj xi in
      let! denom := s_mul denom denom diff in
      l_denominator xi denom xs
  end.
(** poly/lagrange.go:120-136 *)
Fixpoint l_finish (all xs ns : list ptr) : M unit :=
  match xs, ns with
  | xi :: xs, n :: ns =>
    let! one := s_new fone in
    let! denom := l_denominator xi one all in
    let! inv := s_invert denom denom in
    let! b := s_is_zero inv in
    if b then herr
    else s_mul n n inv ;; l_finish all xs ns
  | _, _ => hret tt
  end.
(** poly/lagrange.go:88-140 AtValue.  The numerators are the result; loop two runs over the
    scalars from the last one down to the second, so it is given the reversed
    lists without the first scalar and without the last numerator. *)
Definition l_at_value (value : ptr) (samples : list Z) : M (list ptr) :=
  match samples with
  | [] => herr
  | [_] => let! one := s_new fone in hret [one]
  | _ =>
    if negb (check_dups samples) then herr
    else
      let! xs := hmap (fun i => s_new (from_node_index i)) samples in
      let! tmp := s_new fone in
      let! ns := l_prefix value tmp xs in
      let! tmp := s_new fone in
      l_suffix value tmp (rev (tl xs)) (tl (rev ns)) ;;
      l_finish xs xs ns ;;
      hret ns
  end.
(** poly/lagrange.go:84-86 AtZero *)
Definition l_at_zero (samples : list Z) : M (list ptr) :=
  let! z := s_new fzero in l_at_value z samples.
(** poly/lagrange.go:65-72 *)
Fixpoint l_sum_scalars (result : ptr) (cs ys : list ptr) : M ptr :=
  match cs, ys with
  | c :: cs, y :: ys =>
    let! coefficient := s_clone c in
    let! sample := s_clone y in
    let! t := s_mul sample sample coefficient in
    let! result := s_add result result t in
    l_sum_scalars result cs ys
  | _, _ => hret result
  end.
(** poly/lagrange.go:61-72 InterpolateScalar *)
Definition l_interpolate_scalar (cs ys : list ptr) : M ptr :=
  if negb (Nat.eqb (List.length ys) (List.length cs)) then herr
  else match cs with
       | [] => hpanic
       | _ => let! result := s_new fzero in l_sum_scalars result cs ys
       end.
(** poly/lagrange.go:54-57 *)
Fixpoint l_sum_points (result : ptr) (cs ys : list ptr) : M ptr :=
  match cs, ys with
  | c :: cs, y :: ys =>
    let! coefficient := s_clone c in
    let! sample := p_clone y in
    let! t := p_scalar_mul sample sample coefficient in
    let! result := p_add result result t in
    l_sum_points result cs ys
  | _, _ => hret result
  end.
(** poly/lagrange.go:48-59 InterpolatePoint *)
Definition l_interpolate_point (cs ys : list ptr) : M ptr :=
  if negb (Nat.eqb (List.length ys) (List.length cs)) then herr
  else match cs with
       | [] => hpanic
       | _ => let! result := p_new gzero in l_sum_points result cs ys
       end.
End Heap.
