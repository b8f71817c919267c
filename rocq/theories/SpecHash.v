(** What FIPS 180-4, RFC 2104 and RFC 8439 say, independently of ModelHashes: words are described bit by bit, the
    message schedule and the rounds as sequences, the constants as digits of roots of primes, and the ChaCha state as
    an array whose entries are replaced.  [be_val] and [be_bytes] of Base are the big-endian value and digits. *)
From Coq Require Import ZArith List Znumtheory.
From Verif Require Import Base.
Import ListNotations.
Open Scope Z_scope.

(** the number with the bits [f 0], [f 1], ..., [f (n-1)] *)
Fixpoint word (n : nat) (f : Z -> bool) : Z :=
  match n with O => 0 | S n => 2 * word n (fun i => f (i + 1)) + Z.b2z (f 0) end.
Definition bit (x i : Z) : bool := Z.testbit x i.

(** FIPS 180-4: word length in bits, number of rounds, and the numbers in Sigma0, Sigma1, sigma0, sigma1 *)
Record hash_alg := mkalg { ha_w : nat; ha_rounds : nat; ha_S0 : Z * Z * Z; ha_S1 : Z * Z * Z; ha_s0 : Z * Z * Z; ha_s1 : Z * Z * Z }.
Definition fips256 : hash_alg := mkalg 32 64 (2, 13, 22) (6, 11, 25) (7, 18, 3) (17, 19, 10).
Definition fips512 : hash_alg := mkalg 64 80 (28, 34, 39) (14, 18, 41) (1, 8, 7) (19, 61, 6).

(** [p] is the prime with exactly [t] primes below it *)
Definition nth_prime (t : nat) (p : Z) : Prop :=
  prime p /\ exists l, NoDup l /\ length l = t /\ forall r, In r l <-> (prime r /\ r < p).
(** the first [w] bits of the fractional part of the [e]-th root of [p] *)
Definition frac_root (e w p k : Z) : Prop :=
  exists c, 0 <= c /\ c ^ e <= p * 2 ^ (e * w) < (c + 1) ^ e /\ k = c mod 2 ^ w.

Definition st8 : Type := (Z * Z * Z * Z * Z * Z * Z * Z)%type.
Section Fips.
Context (A : hash_alg).
Let w := Z.of_nat (ha_w A).
Definition f_add (a b : Z) : Z := (a + b) mod 2 ^ w.
Definition f_ch (x y z : Z) : Z := word (ha_w A) (fun i => if bit x i then bit y i else bit z i).
(** the value at least two of the bits have *)
Definition f_maj (x y z : Z) : Z :=
  word (ha_w A) (fun i => (1 <? Z.b2z (bit x i) + Z.b2z (bit y i) + Z.b2z (bit z i))).
(** bit [i] of a word rotated to the right by [n], and shifted *)
Definition rot_bit (x n i : Z) : bool := bit x ((i + n) mod w).
Definition shr_bit (x n i : Z) : bool := if i + n <? w then bit x (i + n) else false.
Definition f_Sigma (r : Z * Z * Z) (x : Z) : Z :=
  let '(a, b, c) := r in word (ha_w A) (fun i => xorb (rot_bit x a i) (xorb (rot_bit x b i) (rot_bit x c i))).
Definition f_sigma (r : Z * Z * Z) (x : Z) : Z :=
  let '(a, b, c) := r in word (ha_w A) (fun i => xorb (rot_bit x a i) (xorb (rot_bit x b i) (shr_bit x c i))).
(** sections 6.2.2 and 6.4.2, step 3 *)
Definition f_step (k wt : Z) (s : st8) : st8 :=
  let '(a, b, c, d, e, f, g, h) := s in
  let t1 := h + f_Sigma (ha_S1 A) e + f_ch e f g + k + wt in
  let t2 := f_Sigma (ha_S0 A) a + f_maj a b c in
  (f_add t1 t2, a, b, c, f_add d t1, e, f, g).
Definition f_add8 (s s' : st8) : st8 :=
  let '(a, b, c, d, e, f, g, h) := s in let '(a', b', c', d', e', f', g', h') := s' in
  (f_add a a', f_add b b', f_add c c', f_add d d', f_add e e', f_add f f', f_add g g', f_add h h').
(** steps 1 to 4 for the message block with words [M] *)
Definition compress_is (M : nat -> Z) (s s' : st8) : Prop :=
  exists (W K : nat -> Z) (S : nat -> st8),
    (forall t, (t < 16)%nat -> W t = M t) /\
    (forall t, (16 <= t)%nat ->
       W t = (f_sigma (ha_s1 A) (W (t - 2)%nat) + W (t - 7)%nat + f_sigma (ha_s0 A) (W (t - 15)%nat) + W (t - 16)%nat) mod 2 ^ w) /\
    (forall t, (t < ha_rounds A)%nat -> exists p, nth_prime t p /\ frac_root 3 w p (K t)) /\
    S O = s /\ (forall t, (t < ha_rounds A)%nat -> S (t + 1)%nat = f_step (K t) (W t) (S t)) /\
    s' = f_add8 s (S (ha_rounds A)).
(** bytes of a word *)
Definition f_bytes : nat := (ha_w A / 8)%nat.
Inductive chain : st8 -> bytes -> st8 -> Prop :=
| chain_nil s : chain s [] s
| chain_cons s b r s1 s2 : length b = (16 * f_bytes)%nat ->
    compress_is (fun t => be_val (firstn f_bytes (skipn (f_bytes * t) b))) s s1 -> chain s1 r s2 -> chain s (b ++ r) s2.
(** section 5.1: a one bit, as few zeros as possible, the length in bits in two words *)
Definition padded (m p : bytes) : Prop :=
  exists k l, p = m ++ 128 :: repeat 0 k ++ l /\ length l = (2 * f_bytes)%nat /\ bytes_ok l /\ be_val l = 8 * blen m /\
    (length p mod (16 * f_bytes) = 0)%nat /\ (k < 16 * f_bytes)%nat.
(** sections 5.3.3 and 5.3.5: square roots of the first eight primes *)
Definition initial (s : st8) : Prop :=
  let '(a, b, c, d, e, f, g, h) := s in
  forall i, (i < 8)%nat -> exists p, nth_prime i p /\ frac_root 2 w p (nth i [a; b; c; d; e; f; g; h] 0).
Definition sha_is (m d : bytes) : Prop :=
  exists p s s', padded m p /\ initial s /\ chain s p s' /\
    let '(a, b, c, d0, e, f, g, h) := s' in d = concat (map (be_bytes f_bytes) [a; b; c; d0; e; f; g; h]).
End Fips.

(** RFC 2104 section 2: the key filled up to the block length, a longer one hashed before; xor byte by byte *)
Definition hmac_is (hash : bytes -> bytes -> Prop) (block : nat) (key m d : bytes) : Prop :=
  exists k0 k1 inner,
    ((length key <= block)%nat /\ k0 = key \/ (block < length key)%nat /\ hash key k0) /\
    length k1 = block /\ (forall i, (i < block)%nat -> nth i k1 0 = nth i k0 0) /\
    hash (map (fun b => Z.lxor b 0x36) k1 ++ m) inner /\ hash (map (fun b => Z.lxor b 0x5c) k1 ++ inner) d.

(** RFC 8439 *)
Definition rol (x n : Z) : Z := word 32 (fun i => bit x ((i - n) mod 32)).
Definition wxor (x y : Z) : Z := word 32 (fun i => xorb (bit x i) (bit y i)).
Definition upd (s : nat -> Z) (i : nat) (v : Z) : nat -> Z := fun j => if Nat.eqb j i then v else s j.
(** section 2.1: a += b; d ^= a; d <<<= n *)
Definition c_line (a b d : nat) (n : Z) (s : nat -> Z) : nat -> Z :=
  let s := upd s a ((s a + s b) mod 2 ^ 32) in let s := upd s d (wxor (s d) (s a)) in upd s d (rol (s d) n).
Definition c_quarter (a b c d : nat) (s : nat -> Z) : nat -> Z :=
  c_line c d b 7 (c_line a b d 8 (c_line c d b 12 (c_line a b d 16 s))).
(** section 2.3 *)
Definition c_inner (s : nat -> Z) : nat -> Z :=
  let s := c_quarter 3 7 11 15 (c_quarter 2 6 10 14 (c_quarter 1 5 9 13 (c_quarter 0 4 8 12 s))) in
  c_quarter 3 4 9 14 (c_quarter 2 7 8 13 (c_quarter 1 6 11 12 (c_quarter 0 5 10 15 s))).
Definition le_value (b : bytes) : Z := fold_right (fun x r => x + 256 * r) 0 b.
(** "expand 32-byte k", eight words of the key, the block number, and a nonce of zeros *)
Definition c_start (key : bytes) (n : Z) (i : nat) : Z :=
  if Nat.ltb i 4 then le_value (firstn 4 (skipn (4 * i) [101;120;112;97; 110;100;32;51; 50;45;98;121; 116;101;32;107]))
  else if Nat.ltb i 12 then le_value (firstn 4 (skipn (4 * (i - 4)) key))
  else if Nat.eqb i 12 then n else 0.
(** byte number [pos] of the key stream: byte [pos mod 4] of a word, lowest first *)
Definition c_stream (key : bytes) (pos : nat) : Z :=
  let i := (pos mod 64 / 4)%nat in let s := c_start key (Z.of_nat (pos / 64)) in
  ((Nat.iter 10 c_inner s i + s i) mod 2 ^ 32 / 256 ^ Z.of_nat (pos mod 4)) mod 256.
