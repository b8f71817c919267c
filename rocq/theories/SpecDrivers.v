(** Any sequence of calls of the protocol drivers, and what the rounds should
    share: a product of the secrets of the random rounds. *)
From Coq Require Import ZArith Bool List.
From Verif Require Import Base Zmod Fields ModelXmd ModelRo ModelGroup ModelCommit ModelDealing ModelProtocol.
Import ListNotations.
Open Scope Z_scope.

(** the secret of a round, in terms of those of the random rounds *)
Inductive expr := ERandom (label : nat) | ETimes (a b : expr).
Fixpoint eval (v : nat -> Fq) (e : expr) : Fq :=
  match e with ERandom i => v i | ETimes a b => fmul (eval v a) (eval v b) end.

Section Runs.
Context {X : Oracles} {GO : Grp}.
Context (cbor_cm : commitment -> bytes).

(** a finished round: whether it is masked, what it shares, and the number of
    nodes and the threshold of the setup when it was run *)
Record entry := mkentry { en_round : round; en_masked : bool; en_expr : expr; en_nodes : Z; en_th : Z }.

(** the setups and the finished rounds that some sequence of calls leads to.
    Thresholds and nodes may be changed between the rounds, every round may use
    any of the rounds finished before; a round that fails leaves a new dealing
    seed behind (testutils/protocol_test.go goes on after failed rounds) *)
Inductive runs : setup -> list entry -> Prop :=
| run_new n th seed su : n <= 2^63 -> new_setup n th seed = Ok su -> runs su []
| run_random su l dealers nc r su' : runs su l -> dealers <= 2^63 -> round_random cbor_cm su dealers nc = Ok (r, su') ->
    runs su' (mkentry r true (ERandom (length l)) (su_receivers su) (su_threshold su) :: l)
| run_masked su l en dealers nc r su' : runs su l -> In en l -> en_masked en = true ->
    round_reshare_masked cbor_cm su (en_round en) dealers nc = Ok (r, su') ->
    runs su' (mkentry r false (en_expr en) (su_receivers su) (su_threshold su) :: l)
| run_unmasked su l en dealers nc r su' : runs su l -> In en l -> en_masked en = false ->
    round_reshare_unmasked cbor_cm su (en_round en) dealers nc = Ok (r, su') ->
    runs su' (mkentry r false (en_expr en) (su_receivers su) (su_threshold su) :: l)
| run_multiply su l en en' dealers nc r su' : runs su l -> In en l -> In en' l -> en_masked en = true -> en_masked en' = false ->
    round_multiply cbor_cm su (en_round en) (en_round en') dealers nc = Ok (r, su') ->
    runs su' (mkentry r true (ETimes (en_expr en') (en_expr en)) (su_receivers su) (su_threshold su) :: l)
| run_failed su l s su' : runs su l -> next_dealing_seed su = Ok (s, su') -> runs su' l
| run_threshold su l th : runs su l -> runs (modify_threshold su th) l
| run_remove su l k su' : runs su l -> remove_nodes su k = Ok su' -> runs su' l.
End Runs.
