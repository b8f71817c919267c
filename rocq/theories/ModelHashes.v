(** The hash functions and the stream cipher the code takes from the Go
    libraries, written out from their specifications: SHA-256 and SHA-512
    (FIPS 180-4), HMAC (RFC 2104) and ChaCha20 (RFC 8439).  They are an instance
    of the record [Oracles] over which everything else is quantified.  Words are
    integers below 2^32 or 2^64. *)
From Coq Require Import ZArith List.
From Verif Require Import Base ModelXmd.
Import ListNotations.
Open Scope Z_scope.

(** ** words *)
(** FIPS 180-4 section 2.2: addition modulo 2^w, [mask] = 2^w - 1; behind crypto/sha256 (seed/xmd.go:4) and crypto/sha512 (key/key_derivation.go:112-128) *)
Definition wadd (mask a b : Z) : Z := Z.land (a + b) mask.
(** FIPS 180-4 section 3.2: rotation to the right of a [w]-bit word; behind crypto/sha256 (seed/xmd.go:4) and crypto/sha512 (key/key_derivation.go:112-128) *)
Definition rotr (w mask x n : Z) : Z := Z.lor (Z.shiftr x n) (Z.land (Z.shiftl x (w - n)) mask).
(** behind crypto/sha256 (seed/xmd.go:4) and crypto/sha512 (key/key_derivation.go:112-128) *)
Definition xor3 (a b c : Z) : Z := Z.lxor a (Z.lxor b c).
(** FIPS 180-4 section 4.1: Ch and Maj; behind crypto/sha256 (seed/xmd.go:4) and crypto/sha512 (key/key_derivation.go:112-128) *)
Definition sha_ch (mask x y z : Z) : Z := Z.lxor (Z.land x y) (Z.land (Z.lxor x mask) z).
(** behind crypto/sha256 (seed/xmd.go:4) and crypto/sha512 (key/key_derivation.go:112-128) *)
Definition sha_maj (x y z : Z) : Z := xor3 (Z.land x y) (Z.land x z) (Z.land y z).

(** the parameters in which SHA-256 and SHA-512 differ; behind crypto/sha256 (seed/xmd.go:4) and crypto/sha512 (key/key_derivation.go:112-128) *)
Record sha_par := mksha {
  sp_w : Z;                      (* word length in bits *)
  sp_bytes : nat;                (* word length in bytes *)
  sp_S0 : Z * Z * Z;             (* Sigma0: three rotations *)
  sp_S1 : Z * Z * Z;             (* Sigma1 *)
  sp_s0 : Z * Z * Z;             (* sigma0: two rotations and a shift *)
  sp_s1 : Z * Z * Z;             (* sigma1 *)
  sp_k : list Z;                 (* round constants *)
  sp_h : list Z                  (* initial value *)
}.
(** FIPS 180-4 sections 4.1.2, 4.2.2, 5.3.3; used through crypto/sha256 at
    seed/xmd.go:4 *)
Definition par256 : sha_par := mksha 32 4 (2, 13, 22) (6, 11, 25) (7, 18, 3) (17, 19, 10)
  [1116352408; 1899447441; 3049323471; 3921009573; 961987163; 1508970993;
   2453635748; 2870763221; 3624381080; 310598401; 607225278; 1426881987;
   1925078388; 2162078206; 2614888103; 3248222580; 3835390401; 4022224774;
   264347078; 604807628; 770255983; 1249150122; 1555081692; 1996064986;
   2554220882; 2821834349; 2952996808; 3210313671; 3336571891; 3584528711;
   113926993; 338241895; 666307205; 773529912; 1294757372; 1396182291;
   1695183700; 1986661051; 2177026350; 2456956037; 2730485921; 2820302411;
   3259730800; 3345764771; 3516065817; 3600352804; 4094571909; 275423344;
   430227734; 506948616; 659060556; 883997877; 958139571; 1322822218;
   1537002063; 1747873779; 1955562222; 2024104815; 2227730452; 2361852424;
   2428436474; 2756734187; 3204031479; 3329325298]
  [1779033703; 3144134277; 1013904242; 2773480762; 1359893119; 2600822924; 528734635; 1541459225].
(** FIPS 180-4 sections 4.1.3, 4.2.3, 5.3.5; used through crypto/sha512 at
    key/key_derivation.go:112-128 *)
Definition par512 : sha_par := mksha 64 8 (28, 34, 39) (14, 18, 41) (1, 8, 7) (19, 61, 6)
  [4794697086780616226; 8158064640168781261; 13096744586834688815;
   16840607885511220156; 4131703408338449720; 6480981068601479193;
   10538285296894168987; 12329834152419229976; 15566598209576043074;
   1334009975649890238; 2608012711638119052; 6128411473006802146;
   8268148722764581231; 9286055187155687089; 11230858885718282805;
   13951009754708518548; 16472876342353939154; 17275323862435702243;
   1135362057144423861; 2597628984639134821; 3308224258029322869;
   5365058923640841347; 6679025012923562964; 8573033837759648693;
   10970295158949994411; 12119686244451234320; 12683024718118986047;
   13788192230050041572; 14330467153632333762; 15395433587784984357;
   489312712824947311; 1452737877330783856; 2861767655752347644;
   3322285676063803686; 5560940570517711597; 5996557281743188959;
   7280758554555802590; 8532644243296465576; 9350256976987008742;
   10552545826968843579; 11727347734174303076; 12113106623233404929;
   14000437183269869457; 14369950271660146224; 15101387698204529176;
   15463397548674623760; 17586052441742319658; 1182934255886127544;
   1847814050463011016; 2177327727835720531; 2830643537854262169;
   3796741975233480872; 4115178125766777443; 5681478168544905931;
   6601373596472566643; 7507060721942968483; 8399075790359081724;
   8693463985226723168; 9568029438360202098; 10144078919501101548;
   10430055236837252648; 11840083180663258601; 13761210420658862357;
   14299343276471374635; 14566680578165727644; 15097957966210449927;
   16922976911328602910; 17689382322260857208; 500013540394364858;
   748580250866718886; 1242879168328830382; 1977374033974150939;
   2944078676154940804; 3659926193048069267; 4368137639120453308;
   4836135668995329356; 5532061633213252278; 6448918945643986474;
   6902733635092675308; 7801388544844847127]
  [7640891576956012808; 13503953896175478587; 4354685564936845355; 11912009170470909681;
   5840696475078001361; 11170449401992604703; 2270897969802886507; 6620516959819538809].

Section Sha.
Context (P : sha_par).
(** 2^w - 1; behind crypto/sha256 (seed/xmd.go:4) and crypto/sha512 (key/key_derivation.go:112-128) *)
Definition sha_mask : Z := Z.ones (sp_w P).
(** behind crypto/sha256 (seed/xmd.go:4) and crypto/sha512 (key/key_derivation.go:112-128) *)
Definition big_sigma (r : Z * Z * Z) (x : Z) : Z :=
  let '(a, b, c) := r in xor3 (rotr (sp_w P) sha_mask x a) (rotr (sp_w P) sha_mask x b) (rotr (sp_w P) sha_mask x c).
(** behind crypto/sha256 (seed/xmd.go:4) and crypto/sha512 (key/key_derivation.go:112-128) *)
Definition small_sigma (r : Z * Z * Z) (x : Z) : Z :=
  let '(a, b, c) := r in xor3 (rotr (sp_w P) sha_mask x a) (rotr (sp_w P) sha_mask x b) (Z.shiftr x c).

(** FIPS 180-4 sections 6.2.2 and 6.4.2: the rounds; [win] are the next sixteen
    words of the message schedule, extended while they are used; behind crypto/sha256 (seed/xmd.go:4) and crypto/sha512 (key/key_derivation.go:112-128) *)
Fixpoint sha_rounds (ks win : list Z) (s : list Z) : list Z :=
  match ks, s with
  | k :: ks, [a; b; c; d; e; f; g; h] =>
    let add := wadd sha_mask in
    let w0 := nth 0 win 0 in
    let t1 := add (add (add (add h (big_sigma (sp_S1 P) e)) (sha_ch sha_mask e f g)) k) w0 in
    let t2 := add (big_sigma (sp_S0 P) a) (sha_maj a b c) in
    let w16 := add (add (add (small_sigma (sp_s1 P) (nth 14 win 0)) (nth 9 win 0)) (small_sigma (sp_s0 P) (nth 1 win 0))) w0 in
    sha_rounds ks (tl win ++ [w16]) [add t1 t2; a; b; c; add d t1; e; f; g]
  | _, _ => s
  end.
(** sections 6.2.2 and 6.4.2, step 4: the new intermediate value, word by word; behind crypto/sha256 (seed/xmd.go:4) and crypto/sha512 (key/key_derivation.go:112-128) *)
Fixpoint add_words (a b : list Z) : list Z :=
  match a, b with x :: a, y :: b => wadd sha_mask x y :: add_words a b | _, _ => [] end.
(** big-endian words of a byte string; behind crypto/sha256 (seed/xmd.go:4) and crypto/sha512 (key/key_derivation.go:112-128) *)
Fixpoint be_words (n : nat) (b : bytes) : list Z :=
  match n with O => [] | S n => be_val (firstn (sp_bytes P) b) :: be_words n (skipn (sp_bytes P) b) end.
(** behind crypto/sha256 (seed/xmd.go:4) and crypto/sha512 (key/key_derivation.go:112-128) *)
Definition sha_block (b : bytes) (s : list Z) : list Z :=
  add_words s (sha_rounds (sp_k P) (be_words 16 b) s).
(** the blocks of the padded message one after the other; behind crypto/sha256 (seed/xmd.go:4) and crypto/sha512 (key/key_derivation.go:112-128) *)
Fixpoint sha_blocks (n : nat) (b : bytes) (s : list Z) : list Z :=
  match n with
  | O => s
  | S n => sha_blocks n (skipn (16 * sp_bytes P) b) (sha_block (firstn (16 * sp_bytes P) b) s)
  end.
(** FIPS 180-4 section 5.1: a one bit, zeros, and the length in bits in two words; behind crypto/sha256 (seed/xmd.go:4) and crypto/sha512 (key/key_derivation.go:112-128) *)
Definition sha_pad (m : bytes) : bytes :=
  let bl := Z.of_nat (16 * sp_bytes P) in
  let zeros := (- (blen m + 1 + Z.of_nat (2 * sp_bytes P))) mod bl in
  m ++ [128] ++ repeat 0 (Z.to_nat zeros) ++ be_bytes (2 * sp_bytes P) (8 * blen m).
(** behind crypto/sha256 (seed/xmd.go:4) and crypto/sha512 (key/key_derivation.go:112-128) *)
Definition sha_digest (m : bytes) : bytes :=
  let b := sha_pad m in
  concat (map (be_bytes (sp_bytes P)) (sha_blocks (List.length b / (16 * sp_bytes P)) b (sp_h P))).
End Sha.

(** crypto/sha256 (seed/xmd.go:4), crypto/sha512 (key/key_derivation.go:112-128) *)
Definition real_sha256 : bytes -> bytes := sha_digest par256.
(** crypto/sha512 (key/key_derivation.go:112-128) *)
Definition real_sha512 : bytes -> bytes := sha_digest par512.

(** ** RFC 2104 section 2, with SHA-512: crypto/hmac at key/key_derivation.go:112-128 *)
(** crypto/hmac at key/key_derivation.go:112-128 *)
Definition real_hmac512 (key m : bytes) : bytes :=
  let k := if 128 <? blen key then real_sha512 key else key in
  let k := k ++ repeat 0 (128 - List.length k) in
  real_sha512 (map (Z.lxor 92) k ++ real_sha512 (map (Z.lxor 54) k ++ m)).

(** ** ChaCha20, RFC 8439 section 2, with zero nonce: rand/chacha20.go:12-21 *)
(** behind the cipher made at rand/chacha20.go:12-21 *)
Definition m32 : Z := Z.ones 32.
(** behind the cipher made at rand/chacha20.go:12-21 *)
Definition rotl32 (x n : Z) : Z := Z.lor (Z.land (Z.shiftl x n) m32) (Z.shiftr x (32 - n)).
(** section 2.1; behind the cipher made at rand/chacha20.go:12-21 *)
Definition quarter_round (a b c d : Z) : Z * Z * Z * Z :=
  let a := wadd m32 a b in let d := rotl32 (Z.lxor d a) 16 in
  let c := wadd m32 c d in let b := rotl32 (Z.lxor b c) 12 in
  let a := wadd m32 a b in let d := rotl32 (Z.lxor d a) 8 in
  let c := wadd m32 c d in let b := rotl32 (Z.lxor b c) 7 in
  (a, b, c, d).
(** section 2.3: a column round followed by a diagonal round; behind the cipher made at rand/chacha20.go:12-21 *)
Definition double_round (s : list Z) : list Z :=
  match s with
  | [x0; x1; x2; x3; x4; x5; x6; x7; x8; x9; x10; x11; x12; x13; x14; x15] =>
    let '(x0, x4, x8, x12) := quarter_round x0 x4 x8 x12 in
    let '(x1, x5, x9, x13) := quarter_round x1 x5 x9 x13 in
    let '(x2, x6, x10, x14) := quarter_round x2 x6 x10 x14 in
    let '(x3, x7, x11, x15) := quarter_round x3 x7 x11 x15 in
    let '(x0, x5, x10, x15) := quarter_round x0 x5 x10 x15 in
    let '(x1, x6, x11, x12) := quarter_round x1 x6 x11 x12 in
    let '(x2, x7, x8, x13) := quarter_round x2 x7 x8 x13 in
    let '(x3, x4, x9, x14) := quarter_round x3 x4 x9 x14 in
    [x0; x1; x2; x3; x4; x5; x6; x7; x8; x9; x10; x11; x12; x13; x14; x15]
  | _ => s
  end.
(** behind the cipher made at rand/chacha20.go:12-21 *)
Definition le_val (b : bytes) : Z := be_val (rev b).
(** behind the cipher made at rand/chacha20.go:12-21 *)
Definition le_bytes (n : nat) (x : Z) : bytes := rev (be_bytes n x).
(** the [n]-th little-endian word of the key; behind the cipher made at rand/chacha20.go:12-21 *)
Definition key_word (key : bytes) (n : nat) : Z := le_val (firstn 4 (skipn (4 * n) key)).
(** section 2.3: the constants, the key, the counter and the nonce; behind the cipher made at rand/chacha20.go:12-21 *)
Definition chacha_init (key : bytes) (counter : Z) : list Z :=
  [1634760805; 857760878; 2036477234; 1797285236] ++ map (key_word key) (seq 0 8) ++ [counter mod 2^32; 0; 0; 0].
(** behind the cipher made at rand/chacha20.go:12-21 *)
Fixpoint add_state (a b : list Z) : list Z :=
  match a, b with x :: a, y :: b => wadd m32 x y :: add_state a b | _, _ => [] end.
(** section 2.3.1: ten double rounds; the 64 bytes of key stream; behind the cipher made at rand/chacha20.go:12-21 *)
Definition chacha_block (key : bytes) (counter : Z) : bytes :=
  let s := chacha_init key counter in
  concat (map (le_bytes 4) (add_state (Nat.iter 10 double_round s) s)).
(** section 2.4.  Unlike x/crypto, whose cipher panics when its 32-bit block
    counter overflows after 2^38 bytes, the counter wraps around; behind the cipher made at rand/chacha20.go:12-21 *)
Definition real_keystream (key : bytes) (pos : nat) : Z :=
  nth (pos mod 64) (chacha_block key (Z.of_nat (pos / 64))) 0.

(** the external primitives, all of them the real ones; [fuel] is the bound on
    rejection loops; the libraries called at seed/xmd.go:4, key/key_derivation.go:112-128, rand/chacha20.go:12-21 *)
Definition realX (fuel : nat) : Oracles := {|
  sha256 := real_sha256;
  hmac512 := real_hmac512;
  keystream := real_keystream;
  rand_fuel := fuel
|}.
