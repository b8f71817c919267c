(** The setup of testutils/protocol_setup.go in memory: the key slices share
    arrays whose capacity stays when the slices are shortened, and a caller may
    recover from the panics of RemoveNodes. *)
From Coq Require Import ZArith Bool String List.
From Verif Require Import Base Zmod Fields ModelScalar ModelXmd ModelRo ModelPoly ModelGroup ModelCommit ModelMega ModelDealing ModelComplaint ModelProtocol.
Import ListNotations.
Open Scope Z_scope.

(** a slice that starts at its array: the array up to the capacity, and the
    length; the slices of testutils/protocol_setup.go:25-26, 51-52 *)
Record slice (A : Type) := mkslice { sl_array : list A; sl_len : nat }.
Arguments mkslice {A}. Arguments sl_array {A}. Arguments sl_len {A}.
(** the elements of a slice, as testutils/protocol_setup.go:63-64 index them *)
Definition sl_elems {A} (s : slice A) : list A := firstn (sl_len s) (sl_array s).
(** testutils/protocol_setup.go:51-52: s[0:n], which the capacity bounds and not
    the length *)
Definition reslice {A} (s : slice A) (n : Z) : res (slice A) :=
  if (n <? 0) || (Z.of_nat (List.length (sl_array s)) <? n) then Panic else Ok (mkslice (sl_array s) (Z.to_nat n)).

Section Setup.
Context {X : Oracles} {GO : Grp}.

(** testutils/protocol_setup.go:11-19 ProtocolSetup *)
Record msetup := mkmsetup {
  ms_threshold : Z; ms_receivers : Z; ms_ad : bytes; ms_pk : slice G; ms_sk : slice Fq; ms_seed : bytes; ms_round : Z }.

(** testutils/protocol_setup.go:21-42 NewProtocolSetup: make(_, receivers,
    receivers), so capacity and length agree *)
Definition m_new (receivers threshold : Z) (seed : bytes) : res msetup :=
  do rn <- seed_rng seed;
  let '(ad, rn) := fill_uint8 rn (repeat 0 32) in
  do n <- go_make receivers;
  do k <- random_scalars n rn;
  Ok (mkmsetup threshold receivers ad (mkslice (map mul_by_g (fst k)) n) (mkslice (fst k) n) seed 0).

(** testutils/protocol_setup.go:44-48 NextDealingSeed; the counter is a Go int *)
Definition m_next_seed (su : msetup) : res bytes * msetup :=
  (seed_derive (ms_seed su) (round_dst (ms_round su)),
   mkmsetup (ms_threshold su) (ms_receivers su) (ms_ad su) (ms_pk su) (ms_sk su) (ms_seed su) (i64 (ms_round su + 1))).
(** testutils/protocol_setup.go:49-53 RemoveNodes: the count is changed before
    the slices are, so a panic leaves the new count behind *)
Definition m_remove (su : msetup) (removing : Z) : res unit * msetup :=
  let n := i64 (ms_receivers su - removing) in
  match reslice (ms_pk su) n with
  | Ok pk =>
    match reslice (ms_sk su) n with
    | Ok sk => (Ok tt, mkmsetup (ms_threshold su) n (ms_ad su) pk sk (ms_seed su) (ms_round su))
    | _ => (Panic, mkmsetup (ms_threshold su) n (ms_ad su) pk (ms_sk su) (ms_seed su) (ms_round su))
    end
  | _ => (Panic, mkmsetup (ms_threshold su) n (ms_ad su) (ms_pk su) (ms_sk su) (ms_seed su) (ms_round su))
  end.
(** testutils/protocol_setup.go:54-56 ModifyThreshold *)
Definition m_threshold (su : msetup) (threshold : Z) : msetup :=
  mkmsetup threshold (ms_receivers su) (ms_ad su) (ms_pk su) (ms_sk su) (ms_seed su) (ms_round su).
(** testutils/protocol_setup.go:57-68 ReceiverInfo *)
Definition m_receiver_info (su : msetup) : res (list (Fq * G * Z)) :=
  do n <- go_make (ms_receivers su);
  mapM (fun i => do sk <- nth_or_panic (sl_elems (ms_sk su)) i; do pk <- nth_or_panic (sl_elems (ms_pk su)) i;
                 Ok (sk, pk, Z.of_nat i)) (seq 0 n).

(** one call on a setup *)
Inductive call := Remove (k : Z) | Threshold (t : Z) | NextSeed.
(** the setup behind one call of testutils/protocol_setup.go:44-56, the caller
    recovering from panics *)
Definition m_call (su : msetup) (c : call) : msetup :=
  match c with Remove k => snd (m_remove su k) | Threshold t => m_threshold su t | NextSeed => snd (m_next_seed su) end.
(** the setup behind a sequence of such calls; testutils/protocol_setup.go:44-56 *)
Definition m_calls (su : msetup) (cs : list call) : msetup := fold_left m_call cs su.
End Setup.
