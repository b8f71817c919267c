(** External primitives and seed/xmd.go. *)
From Coq Require Import ZArith Lia List Bool String.
From Verif Require Import Base.
Import ListNotations.
Open Scope Z_scope.

(** The external primitives the code calls.  Theorems are quantified over all
    values of this record (subject to [oracles_ok] where lengths matter).
    - [sha256]   crypto/sha256 (seed/xmd.go:4)
    - [hmac512]  HMAC-SHA512 of crypto/hmac (key/key_derivation.go:112-128)
    - [keystream] key pos: byte number [pos] of the ChaCha20 key stream with
                 zero nonce (rand/chacha20.go:12-21)
    - [rand_fuel] bound on the number of iterations of rejection loops *)
Class Oracles := {
  sha256 : bytes -> bytes;
  hmac512 : bytes -> bytes -> bytes;
  keystream : bytes -> nat -> Z;
  rand_fuel : nat
}.

(** no Go counterpart: output lengths of the libraries called at seed/xmd.go:4, key/key_derivation.go:112-128, rand/chacha20.go:12-21 *)
Record oracles_ok (X : Oracles) : Prop := {
  sha256_len : forall m, List.length (sha256 m) = 32%nat;
  sha256_bytes : forall m, bytes_ok (sha256 m);
  hmac_len : forall k m, List.length (hmac512 k m) = 64%nat;
  hmac_bytes : forall k m, bytes_ok (hmac512 k m);
  keystream_byte : forall k i, byte_ok (keystream k i)
}.

Section Xmd.
Context {X : Oracles}.

(** seed/xmd.go:35-46: the loop from i to ell.  [out] is the slice built so
    far; tmp[j] = b0[j] ^ out[len(out)-32+j]. *)
Fixpoint xmd_loop (n : nat) (i : Z) (b0 dst out : bytes) : bytes :=
  match n with
  | O => out
  | S n =>
    let tmp := xor_bytes b0 (skipn (List.length out - 32) out) in
    xmd_loop n (i + 1) b0 dst (out ++ sha256 (tmp ++ [u8 i] ++ dst ++ [u8 (blen dst)]))
  end.

(** seed/xmd.go:18-49: the closure xmd(dst) for given msg, length, ell *)
Definition xmd (msg : bytes) (length ell : Z) (dst : bytes) : bytes :=
  let b0 := sha256 (repeat 0 64 ++ msg ++ [u8 (length / 256); u8 (length mod 256); 0]
                    ++ dst ++ [u8 (blen dst)]) in
  let out := sha256 (b0 ++ [1] ++ dst ++ [u8 (blen dst)]) in
  xmd_loop (Z.to_nat (ell - 1)) 2 b0 dst out.

(** seed/xmd.go:12-63 ExpandMessageXmd.  Go's (length-1)/32 truncates towards
    zero, hence [Z.quot].  A negative length panics (slice bounds or make). *)
Definition expand_message_xmd (msg dst : bytes) (length : Z) : res bytes :=
  if 255 * 32 <? length then Err
  else if length <? 0 then Panic
  else
    let ell := Z.quot (length - 1) 32 + 1 in
    let out :=
      if 256 <=? blen dst
      then xmd msg length ell (sha256 (str "H2C-OVERSIZE-DST-" ++ dst))
      else xmd msg length ell dst in
    Ok (if length <? blen out then firstn (Z.to_nat length) out else out).
End Xmd.
