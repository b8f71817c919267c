(** Property C106: curve numbers other than K256. *)
From Coq Require Import ZArith Lia Bool String List Ring Field.
From Verif Require Import Base BaseFacts Zmod Fields ModelScalar ModelXmd ProofXmd ModelRo ModelPoly ModelGroup ModelCommit ModelZk ProofZk ModelMega ProofMega
  ModelDealing ModelKey ModelSign ModelSecp ModelH2C ModelMegaKey ModelCurve ProofTranscript SpecSecp SpecH2C ProofFp ProofH2C SpecPoly ProofPoly.
From Verif Require GroupFacts ProofCommit Toy ToyShort PropSign PropPresig PropReveal PropCorruptAll.
Import ListNotations.
Open Scope Z_scope.

(** ** The tables *)

(** number of bits of a positive integer *)
Definition bit_length (n : Z) : Z := Z.log2 n + 1.

Theorem C106_tables :
  (scalar_bits 1 = bit_length q /\ field_bits 1 = bit_length p /\ scalar_bits 1 = 2 * security_level 1 /\
   scalar_nbytes 1 = 32 /\ field_nbytes 1 = 32 /\ point_nbytes 1 = 33 /\ curve_name 1 = str "secp256k1") /\
  (forall c, c <> 1 ->
     scalar_bits c = 0 /\ field_bits c = 0 /\ security_level c = 0 /\ scalar_nbytes c = 0 /\ field_nbytes c = 0 /\
     point_nbytes c = 1 /\ curve_name c = [] /\ curve_tag c = 0) /\
  (forall c, from_tag (curve_tag c) = c <-> c = 1 \/ c = 0) /\
  (forall t, from_tag t = 1 <-> t = 1) /\
  (forall c, curve_tag c = 1 <-> c = 1).
Proof.
  split; [|split; [|split; [|split]]].
  - repeat split; vm_compute; reflexivity.
  - intros c N. unfold point_nbytes, scalar_nbytes, field_nbytes, scalar_bits, field_bits, security_level, curve_name, curve_tag.
    rewrite (proj2 (Z.eqb_neq _ _) N). repeat split; reflexivity.
  - intros c. unfold from_tag, curve_tag. destruct (Z.eqb_spec c 1).
    + subst. split; auto.
    + change (0 =? 1) with false. cbv iota. split; [intros H; right; symmetry; exact H|]. intros [H|H]; [contradiction|symmetry; exact H].
  - intros t. unfold from_tag. destruct (Z.eqb_spec t 1); split; intros H; (assumption || reflexivity || discriminate H || contradiction).
  - intros t. unfold curve_tag. destruct (Z.eqb_spec t 1); split; intros H; (assumption || reflexivity || discriminate H || contradiction).
Qed.
Print Assumptions C106_tables.

(** ** For K256 these are the functions of the other files *)

Lemma mapM_some {A B} (f : A -> res B) (g : A -> res (option B)) l :
  (forall a, g a = do s <- f a; Ok (Some s)) -> mapM g l = do r <- mapM f l; Ok (map Some r).
Proof.
  intros H. induction l as [|a l IH]; [reflexivity|]. cbn [mapM]. rewrite H, IH.
  destruct (f a); [|reflexivity..]. cbn [bind]. destruct (mapM f l); reflexivity.
Qed.
Lemma all_some_map {A} (l : list A) : all_some (map Some l) = Some l.
Proof. induction l as [|a l IH]; [reflexivity|]. cbn [map all_some]. rewrite IH. reflexivity. Qed.

Section K256.
Context {X : Oracles} {GO : Grp}.

Lemma random_loop_k256 fuel : forall r buf,
  random_loop_on fuel 1 r buf = do x <- random_loop fuel r buf; Ok (Some (fst x), snd x).
Proof.
  induction fuel as [|fuel IH]; intros r buf; [reflexivity|]. cbn [random_loop_on random_loop].
  destruct (fill_uint8 r buf) as [buf' r']. unfold scalar_deserialize. destruct buf' as [|b t]; [apply IH|].
  change (1 =? 1) with true. cbv iota. destruct (k256_deserialize (b :: t)); cbn [bind]; [reflexivity|apply IH..].
Qed.
Lemma random_scalar_k256 r : random_scalar_on 1 r = do x <- random_scalar r; Ok (Some (fst x), snd x).
Proof. unfold random_scalar_on, random_scalar. change (Z.to_nat (scalar_nbytes 1)) with 32%nat. apply random_loop_k256. Qed.
Lemma random_scalars_k256 n : forall r, random_scalars_on n 1 r = do x <- random_scalars n r; Ok (map Some (fst x), snd x).
Proof.
  induction n as [|n IH]; intros r; [reflexivity|]. cbn [random_scalars_on random_scalars]. rewrite random_scalar_k256.
  destruct (random_scalar r) as [[s r']| | |]; [|reflexivity..]. cbn [bind fst snd]. rewrite IH.
  destruct (random_scalars n r') as [[l r'']| | |]; reflexivity.
Qed.
Lemma poly_random_k256 num r : poly_random_on 1 num r = do x <- poly_random num r; Ok (map Some (fst x), snd x).
Proof. unfold poly_random_on, poly_random. destruct (num <? 0); [reflexivity|]. apply random_scalars_k256. Qed.
Lemma from_wide_k256 b : from_bytes_wide_on 1 b = do s <- scalar_from_bytes_wide b; Ok (Some s).
Proof. reflexivity. Qed.
Lemma hash_to_scalar_k256 count i d : hash_to_scalar_on count 1 i d = do l <- hash_to_scalar count i d; Ok (map Some l).
Proof.
  unfold hash_to_scalar_on, hash_to_scalar. change ((scalar_bits 1 + security_level 1 + 7) / 8) with 48. cbv zeta.
  destruct (Z.ltb_spec count 0) as [L|L].
  - unfold expand_message_xmd. destruct (Z.ltb_spec (255 * 32) (count * 48)); [lia|]. destruct (Z.ltb_spec (count * 48) 0); [reflexivity|lia].
  - destruct (expand_message_xmd i d (count * 48)) as [u| | |]; [|reflexivity..]. cbn [bind].
    apply (mapM_some (fun i => scalar_from_bytes_wide (chunk48 u i))). intros a. reflexivity.
Qed.
Lemma output_scalar_k256 r : output_scalar_on 1 r = do s <- ro_output_scalar r; Ok (Some s).
Proof.
  unfold output_scalar_on, output_scalars_on, ro_output_scalar, ro_output_scalars. destruct (ro_form r) as [i| | |]; [|reflexivity..].
  cbn [bind]. change (curve_name 1) with (str "secp256k1"). rewrite hash_to_scalar_k256. unfold curve_dst.
  destruct (hash_to_scalar 1 i _) as [[|s l]| | |]; reflexivity.
Qed.
Lemma hash_to_field_k256 n i d : hash_to_field_on n 1 i d = do l <- hash_to_field n i d; Ok (map Some l).
Proof.
  unfold hash_to_field_on, hash_to_field. change ((field_bits 1 + security_level 1 + 7) / 8) with ((256 + 128 + 7) / 8). cbv zeta.
  destruct (expand_message_xmd i d _) as [u| | |]; [|reflexivity..]. cbn [bind].
  apply (mapM_some (fun i => do b <- slice u (Z.of_nat i * ((256 + 128 + 7) / 8)) ((Z.of_nat i + 1) * ((256 + 128 + 7) / 8)); Ok (fe_from_bytes_wide b))).
  intros a. destruct (slice u _ _); reflexivity.
Qed.
Lemma mapM_length' {A B} (f : A -> res B) l r : mapM f l = Ok r -> List.length r = List.length l.
Proof.
  revert r. induction l as [|a l IH]; intros r; cbn [mapM]; [intros H; inversion H; reflexivity|].
  destruct (f a); [|discriminate..]. cbn [bind]. destruct (mapM f l); [|discriminate..]. cbn [bind].
  intros H. inversion H. cbn [List.length]. f_equal. apply IH. reflexivity.
Qed.
Lemma hash_to_curve_k256 i d : hash_to_curve_ro_on 1 i d = hash_to_curve_ro i d.
Proof.
  unfold hash_to_curve_ro_on, hash_to_curve_ro. rewrite hash_to_field_k256.
  destruct (hash_to_field 2 i d) as [l| | |] eqn:E; [|reflexivity..]. cbn [bind].
  assert (L : List.length l = 2%nat).
  { unfold hash_to_field in E. destruct (expand_message_xmd _ _ _); [|discriminate..]. cbn [bind] in E. apply mapM_length' in E. exact E. }
  destruct l as [|a [|b [|? ?]]]; try discriminate L. cbn [map nth map_to_curve_on recv bind].
  unfold map_to_curve_on. cbn [recv bind].
  destruct (map_to_curve a) as [[q0|]| | |]; cbn [bind recv]; [| |reflexivity..];
    destruct (map_to_curve b) as [[q1|]| | |]; reflexivity.
Qed.
Lemma at_zero_k256 l : at_zero_on 1 l = lagrange_at_zero l.
Proof. unfold at_zero_on, at_value_on, lagrange_at_zero. destruct l; reflexivity. Qed.
Lemma combine_interp_k256 ty t ds : combine_interp_on 1 ty t ds = combine_interp ty t ds.
Proof.
  unfold combine_interp_on, combine_interp. destruct (mapM _ ds); [|reflexivity..]. cbn [bind]. rewrite at_zero_k256. reflexivity.
Qed.
Lemma sum_points_k256 acc : forall l, sum_points_on (map Some acc) l = do r <- sum_points acc l; Ok (map Some r).
Proof.
  induction acc as [|a acc IH]; intros l; [reflexivity|]. destruct l as [|b l]; [reflexivity|]. cbn [map sum_points_on sum_points].
  rewrite IH. destruct (sum_points acc l); reflexivity.
Qed.
Lemma sum_dealings_k256 ds : forall acc, sum_dealings_on (map Some acc) ds = do r <- sum_dealings acc ds; Ok (map Some r).
Proof.
  induction ds as [|[i d] ds IH]; intros acc; [reflexivity|]. cbn [sum_dealings_on sum_dealings].
  destruct (c_type (d_cm d)) as [t| | |]; [|reflexivity..]. cbn [bind]. destruct (negb (t =? ct_pedersen)); [reflexivity|].
  destruct (c_points (d_cm d)) as [l| | |]; [|reflexivity..]. cbn [bind]. rewrite sum_points_k256.
  destruct (sum_points acc l); [|reflexivity..]. cbn [bind]. apply IH.
Qed.
Lemma repeat_map {A B} (f : A -> B) a n : repeat (f a) n = map f (repeat a n).
Proof. induction n as [|n IH]; [reflexivity|]. cbn [repeat map]. f_equal. exact IH. Qed.
Lemma new_transcript_k256 t ds op : new_transcript_on 1 t ds op = do r <- new_transcript t ds op; Ok (TrPoints r).
Proof.
  unfold new_transcript_on, new_transcript. destruct (check_lengths ds t); [|reflexivity..]. cbn [bind].
  destruct op; try (rewrite combine_interp_k256).
  - destruct (go_make t) as [n| | |]; [|reflexivity..]. cbn [bind]. unfold gzero_on. change (1 =? 1) with true. cbv iota.
    rewrite (repeat_map Some). rewrite sum_dealings_k256. destruct (sum_dealings _ ds); [|reflexivity..]. cbn [bind]. rewrite all_some_map. reflexivity.
  - destruct (c_type p); [|reflexivity..]. cbn [bind]. destruct (negb _); [reflexivity|]. destruct (c_len p); [|reflexivity..]. cbn [bind].
    destruct (_ <? _); [reflexivity|]. destruct (combine_interp _ _ _) as [cm| | |]; [|reflexivity..]. cbn [bind].
    destruct (c_constant_term p); [|reflexivity..]. cbn [bind]. destruct (c_constant_term cm); [|reflexivity..]. cbn [bind]. destruct (geqb _ _); reflexivity.
  - destruct (c_type p); [|reflexivity..]. cbn [bind]. destruct (negb _); [reflexivity|]. destruct (c_len p); [|reflexivity..]. cbn [bind].
    destruct (_ <? _); [reflexivity|]. destruct (combine_interp _ _ _); reflexivity.
  - destruct (c_type l); [|reflexivity..]. cbn [bind]. destruct (negb _); [reflexivity|].
    destruct (c_type r); [|reflexivity..]. cbn [bind]. destruct (negb _); [reflexivity|].
    destruct (c_len l); [|reflexivity..]. cbn [bind]. destruct (c_len r); [|reflexivity..]. cbn [bind].
    destruct (_ <? _); [reflexivity|]. destruct (combine_interp _ _ _); reflexivity.
  - reflexivity.
Qed.
Lemma new_dealing_k256 sh seed t rc dealer ad : new_dealing_on 1 sh seed t rc dealer ad = new_dealing sh seed t rc dealer ad.
Proof.
  destruct sh; unfold new_dealing_on, new_dealing; destruct (_ || _); [reflexivity| |reflexivity| |reflexivity| |reflexivity| |reflexivity|];
    (destruct (seed_derive seed poly_dst) as [s1| | |]; [|reflexivity..]); cbn [bind];
    (destruct (seed_rng s1) as [rn| | |]; [|reflexivity..]); cbn [bind];
    (destruct (seed_derive seed mega_dst) as [ms| | |]; [|reflexivity..]); cbn [bind]; try reflexivity.
  - rewrite poly_random_k256. destruct (poly_random t rn) as [[v r1]| | |]; [|reflexivity..]. cbn [bind fst snd].
    rewrite poly_random_k256. destruct (poly_random t r1) as [[m r2]| | |]; [|reflexivity..]. cbn [bind fst snd].
    rewrite !all_some_map. reflexivity.
  - rewrite random_scalar_k256. destruct (random_scalar rn) as [[pm r1]| | |]; [|reflexivity..]. cbn [bind fst snd recv]. reflexivity.
Qed.
Lemma sum_pedersen_k256 os : forall v m, sum_pedersen_on os (Some v) (Some m) =
  match sum_pedersen os v m with Ok (OPedersen v m) => Ok (Some v, Some m) | _ => Err end.
Proof. induction os as [|o os IH]; intros v m; [reflexivity|]. destruct o; try reflexivity. cbn [sum_pedersen_on sum_pedersen recv bind]. apply IH. Qed.
Lemma sum_pedersen_cases os : forall v m, (exists v' m', sum_pedersen os v m = Ok (OPedersen v' m')) \/ sum_pedersen os v m = Err.
Proof. induction os as [|o os IH]; intros v m; [left; exists v, m; reflexivity|]. destruct o; try (right; reflexivity). cbn [sum_pedersen]. apply IH. Qed.
Lemma combine_openings_k256 ixs os tc i : combine_openings_on 1 ixs os tc i = combine_openings ixs os tc i.
Proof.
  unfold combine_openings_on, combine_openings. destruct tc as [l|l|cm|cm|]; try reflexivity.
  - change (zero_on 1) with (Some (fzero : Fq)). rewrite sum_pedersen_k256.
    destruct (sum_pedersen_cases os fzero fzero) as [(v & m & ->)| ->]; reflexivity.
  - destruct cm; try reflexivity.
    + destruct (zip_simple ixs os); [|reflexivity..]. cbn [bind]. rewrite at_zero_k256. destruct (lagrange_at_zero _); [|reflexivity..]. cbn [bind].
      destruct (interpolate_scalar _ _); reflexivity.
    + destruct (zip_pedersen ixs os); [|reflexivity..]. cbn [bind]. rewrite at_zero_k256. destruct (lagrange_at_zero _); [|reflexivity..]. cbn [bind].
      destruct (interpolate_scalar _ _); [|reflexivity..]. cbn [bind]. destruct (interpolate_scalar _ _); reflexivity.
Qed.
Lemma derive_rho_k256 h rn pa k ps : derive_rho_on 1 h rn pa k ps = derive_rho h rn pa k ps.
Proof.
  unfold derive_rho_on, derive_rho. destruct (presig_point ps); [|reflexivity..]. cbn [bind]. destruct (tr_constant_term k); [|reflexivity..]. cbn [bind].
  destruct (derive_tweak pa _) as [t| | |]; [|reflexivity..]. cbn [bind]. rewrite output_scalar_k256.
  destruct (ro_output_scalar _); reflexivity.
Qed.
Lemma hash_to_integer_k256 h : hash_to_integer_on 1 h = do s <- hash_to_integer h; Ok (Some s).
Proof. reflexivity. Qed.
End K256.

(** the curve number 1 selects the functions the other properties are about *)
Theorem C106_k256_agrees : forall (X : Oracles) (GO : Grp),
  (forall seed, scalar_from_seed_on 1 seed = do s <- scalar_from_seed seed; Ok (Some s)) /\
  (forall n i d, hash_to_scalar_on n 1 i d = do l <- hash_to_scalar n i d; Ok (map Some l)) /\
  (forall i d, hash_to_curve_ro_on 1 i d = hash_to_curve_ro i d) /\
  generator_h_on 1 = generator_h /\
  (forall l, at_zero_on 1 l = lagrange_at_zero l) /\
  (forall sh seed t rc dealer ad, new_dealing_on 1 sh seed t rc dealer ad = new_dealing sh seed t rc dealer ad) /\
  (forall d op t dealer n ad, publicly_verify_on 1 d op t dealer n ad = publicly_verify d op t dealer n ad) /\
  (forall d sk pk ad dealer r, private_verify_on 1 d sk pk ad dealer r = private_verify d sk pk ad dealer r) /\
  (forall t ds op, new_transcript_on 1 t ds op = do r <- new_transcript t ds op; Ok (TrPoints r)) /\
  (forall ixs os tc i, combine_openings_on 1 ixs os tc i = combine_openings ixs os tc i) /\
  (forall pa h rn k ps l kl xl, new_share_on 1 pa h rn k ps l kl xl = new_share pa h rn k ps l kl xl) /\
  (forall s pa h rn i k ps l kl xl, share_verify_on 1 s pa h rn i k ps l kl xl = share_verify s pa h rn i k ps l kl xl) /\
  (forall pa h rn k ps t ss, combine_sig_on 1 pa h rn k ps t ss = combine_sig pa h rn k ps t ss) /\
  (forall s pa h rn k ps, sig_verify_on 1 s pa h rn k ps = sig_verify s pa h rn k ps).
Proof.
  intros X GO. repeat split.
  - intros seed. unfold scalar_from_seed_on, scalar_from_seed. destruct (seed_rng seed) as [r| | |]; [|reflexivity..]. cbn [bind].
    rewrite random_scalar_k256. destruct (random_scalar r); reflexivity.
  - apply hash_to_scalar_k256.
  - apply hash_to_curve_k256.
  - apply at_zero_k256.
  - apply new_dealing_k256.
  - apply new_transcript_k256.
  - apply combine_openings_k256.
  - intros. unfold new_share_on, new_share. rewrite derive_rho_k256. destruct (derive_rho _ _ _ _ _); [|reflexivity..]. cbn [bind].
    rewrite hash_to_integer_k256. destruct (hash_to_integer h); reflexivity.
  - intros. unfold share_verify_on, share_verify. rewrite derive_rho_k256. destruct (derive_rho _ _ _ _ _); [|reflexivity..]. cbn [bind].
    rewrite hash_to_integer_k256. destruct (hash_to_integer h); reflexivity.
  - intros. unfold combine_sig_on, combine_sig. destruct (_ <? _); [reflexivity|]. rewrite derive_rho_k256. destruct (derive_rho _ _ _ _ _); [|reflexivity..]. cbn [bind].
    destruct (go_make t); [|reflexivity..]. cbn [bind]. rewrite at_zero_k256. reflexivity.
  - intros. unfold sig_verify_on, sig_verify. destruct (_ || _); [reflexivity|]. rewrite hash_to_integer_k256, derive_rho_k256.
    destruct (hash_to_integer h); [|reflexivity..]. cbn [bind]. destruct (derive_rho _ _ _ _ _); [|reflexivity..]. cbn [bind].
    destruct (_ || _); [reflexivity|]. destruct (tr_constant_term k); reflexivity.
Qed.
Print Assumptions C106_k256_agrees.

(** ** Every other number *)

Section Other.
Context {X : Oracles} {GO : Grp} (c : Z) (N : c <> 1).

Lemma other_eqb : (c =? 1) = false.
Proof. apply Z.eqb_neq. exact N. Qed.
Lemma other_eqb' : (1 =? c) = false.
Proof. apply Z.eqb_neq. intros E. apply N. symmetry. exact E. Qed.
Lemma other_random r : random_scalar_on c r = Diverge.
Proof.
  unfold random_scalar_on, scalar_nbytes, scalar_bits. rewrite other_eqb. change (repeat 0 (Z.to_nat ((0 + 7) / 8))) with (@nil Z).
  generalize rand_fuel. intros f. revert r. induction f as [|f IH]; intros r; [reflexivity|]. cbn [random_loop_on]. unfold fill_uint8.
  cbn [List.length xor_bytes scalar_deserialize]. apply IH.
Qed.
Lemma other_xmd0 i d : exists u, expand_message_xmd i d 0 = Ok u.
Proof. unfold expand_message_xmd. change (255 * 32 <? 0) with false. change (0 <? 0) with false. cbv iota zeta. eauto. Qed.
Lemma mapM_const {A B} (f : A -> res B) b l : (forall a, f a = Ok b) -> mapM f l = Ok (repeat b (List.length l)).
Proof. intros H. induction l as [|a l IH]; [reflexivity|]. cbn [mapM]. rewrite H, IH. reflexivity. Qed.
Lemma other_hash n i d : 0 <= n -> hash_to_scalar_on n c i d = Ok (repeat None (Z.to_nat n)).
Proof.
  intros Hn. unfold hash_to_scalar_on, scalar_bits, security_level. rewrite other_eqb. change ((0 + 0 + 7) / 8) with 0. cbv zeta.
  rewrite Z.mul_0_r. destruct (other_xmd0 i d) as [u ->]. cbn [bind]. destruct (Z.ltb_spec n 0); [lia|].
  rewrite (mapM_const _ None); [rewrite seq_length; reflexivity|]. intros a. unfold from_bytes_wide_on. rewrite other_eqb. reflexivity.
Qed.
Lemma other_hash_negative n i d : n < 0 -> hash_to_scalar_on n c i d = Panic.
Proof.
  intros Hn. unfold hash_to_scalar_on, scalar_bits, security_level. rewrite other_eqb. change ((0 + 0 + 7) / 8) with 0. cbv zeta.
  rewrite Z.mul_0_r. destruct (other_xmd0 i d) as [u ->]. cbn [bind]. destruct (Z.ltb_spec n 0); [reflexivity|lia].
Qed.
Lemma other_hash_to_field n i d : hash_to_field_on n c i d = Ok (repeat None n).
Proof.
  unfold hash_to_field_on, field_bits, security_level. rewrite other_eqb. change ((0 + 0 + 7) / 8) with 0. cbv zeta.
  rewrite Z.mul_0_r. destruct (other_xmd0 i d) as [u ->]. cbn [bind].
  rewrite (mapM_const _ None); [rewrite seq_length; reflexivity|]. intros a. rewrite !Z.mul_0_r. unfold slice. change (0 <=? 0) with true.
  pose proof (blen_nonneg u). destruct (Z.leb_spec 0 (blen u)); [|lia]. cbn [andb bind]. unfold fe_wide_on. rewrite other_eqb. reflexivity.
Qed.
Lemma other_output r : output_scalar_on c r = do _ <- ro_form r; Ok None.
Proof.
  unfold output_scalar_on, output_scalars_on. destruct (ro_form r) as [i| | |]; [|reflexivity..]. cbn [bind]. rewrite other_hash by lia. reflexivity.
Qed.
Lemma other_map_to_curve i d : hash_to_curve_ro_on c i d = Panic.
Proof. unfold hash_to_curve_ro_on. rewrite other_hash_to_field. reflexivity. Qed.
Lemma other_generator : generator_h_on c = Panic.
Proof.
  unfold generator_h_on, point_deserialize, point_bytes. rewrite other_eqb. reflexivity.
Qed.
Lemma other_at_zero l : at_zero_on c l = match l with [] => Err | _ => Panic end.
Proof. unfold at_zero_on, at_value_on, zero_on. rewrite other_eqb. destruct l; reflexivity. Qed.

Lemma other_rho_never h rn pa k ps r : derive_rho_on c h rn pa k ps <> Ok r.
Proof.
  unfold derive_rho_on. destruct (presig_point ps); [|discriminate..]. cbn [bind]. destruct (tr_constant_term k); [|discriminate..]. cbn [bind].
  destruct (derive_tweak pa _); [|discriminate..]. cbn [bind]. destruct (output_scalar_on c _); [|discriminate..]. cbn [bind].
  unfold genG_on. rewrite other_eqb. discriminate.
Qed.
Lemma other_rho h rn pa k ps r : derive_rho h rn pa k ps = Ok r -> derive_rho_on c h rn pa k ps = Panic.
Proof.
  unfold derive_rho, derive_rho_on. destruct (presig_point ps); [|discriminate..]. cbn [bind]. destruct (tr_constant_term k); [|discriminate..]. cbn [bind].
  destruct (derive_tweak pa _) as [t| | |]; [|discriminate..]. cbn [bind]. rewrite other_output. unfold ro_output_scalar, ro_output_scalars.
  destruct (ro_form _); [|discriminate..]. intros _. cbn [bind]. unfold genG_on. rewrite other_eqb. reflexivity.
Qed.
Lemma other_interp_never ty t ds cm : combine_interp_on c ty t ds <> Ok cm.
Proof.
  unfold combine_interp_on. destruct (mapM _ ds); [|discriminate..]. cbn [bind]. rewrite other_at_zero. destruct (map fst ds); discriminate.
Qed.
Lemma other_interp ty t ds cm : combine_interp ty t ds = Ok cm -> combine_interp_on c ty t ds = Panic.
Proof.
  unfold combine_interp, combine_interp_on. destruct (mapM _ ds); [|discriminate..]. cbn [bind]. rewrite other_at_zero.
  destruct (map fst ds); [discriminate|]. intros _. reflexivity.
Qed.
Lemma other_sum_points n : forall l, sum_points_on (repeat None (S n)) l = Panic.
Proof. intros l. cbn [repeat sum_points_on]. destruct l; reflexivity. Qed.
End Other.

(** hashing hands out nil scalars as if nothing was wrong, and panics for points *)
Theorem C106_hashing_to_other_curves : forall (X : Oracles) c, c <> 1 ->
  (forall n i d, hash_to_scalar_on n c i d = if n <? 0 then Panic else Ok (repeat None (Z.to_nat n))) /\
  (forall n r, ro_inputs r <> [] -> output_scalars_on c r n = if n <? 0 then Panic else Ok (repeat None (Z.to_nat n))) /\
  (forall n i d, hash_to_field_on n c i d = Ok (repeat None n)) /\
  map_to_curve_on None = Panic /\
  (forall i d, hash_to_one_scalar_on c i d = Ok None) /\
  (forall r, ro_inputs r <> [] -> output_scalar_on c r = Ok None) /\
  (forall b, from_bytes_wide_on c b = Ok None) /\
  (forall i d, hash_to_curve_ro_on c i d = Panic) /\
  generator_h_on c = Panic /\
  (zero_on c = None /\ one_on c = None /\ (forall i, from_node_index_on c i = None) /\ identity_on c = None /\ generator_g_on c = None) /\
  (forall l, at_zero_on c l = match l with [] => Err | _ => Panic end).
Proof.
  intros X c N. pose proof (other_eqb c N) as E. 
  assert (HS : forall n i d, hash_to_scalar_on n c i d = if n <? 0 then Panic else Ok (repeat None (Z.to_nat n))).
  { intros n i d. destruct (Z.ltb_spec n 0); [apply other_hash_negative|apply other_hash]; assumption. }
  split; [exact HS|]. split; [intros n r H; unfold output_scalars_on, ro_form; destruct (ro_inputs r); [contradiction|apply HS]|].
  split; [intros; apply other_hash_to_field; exact N|]. split; [reflexivity|]. split; [intros i d; unfold hash_to_one_scalar_on; rewrite (other_hash c N 1 i d) by lia; reflexivity|]. split.
  - intros r H. rewrite other_output by exact N. unfold ro_form. destruct (ro_inputs r); [contradiction|reflexivity].
  - split; [intros b; unfold from_bytes_wide_on; rewrite E; reflexivity|]. split; [intros; apply other_map_to_curve; exact N|].
    split; [apply other_generator; exact N|]. split.
    + unfold zero_on, one_on, from_node_index_on, from_uint64_on, identity_on, generator_g_on. rewrite E. repeat split; reflexivity.
    + intros l. apply other_at_zero. exact N.
Qed.
Print Assumptions C106_hashing_to_other_curves.

(** drawing a scalar never ends: no key pair, no dealing of a fresh secret, no
    dealing of a product, whatever the number of rounds the model allows *)
Theorem C106_drawing_never_ends : forall (X : Oracles) (HX : oracles_ok X) (GO : Grp) c, c <> 1 ->
  (forall r, random_scalar_on c r = Diverge) /\
  (forall seed, blen seed = 32 -> scalar_from_seed_on c seed = Diverge /\ gen_keypair_on c seed = Diverge) /\
  (forall n r, 0 < n -> poly_random_on c n r = Diverge) /\
  (forall sh seed t rc dealer ad, 0 < t <= Z.of_nat (List.length rc) ->
     sh = SRandom \/ (exists l r m, sh = STimes l r m) -> new_dealing_on c sh seed t rc dealer ad = Diverge) /\
  (forall s m seed t rc dealer ad,
     new_dealing_on c (SReshareUnmasked s) seed t rc dealer ad = new_dealing (SReshareUnmasked s) seed t rc dealer ad /\
     new_dealing_on c (SReshareMasked s m) seed t rc dealer ad = new_dealing (SReshareMasked s m) seed t rc dealer ad).
Proof.
  intros X HX GO c N. assert (R := fun r => other_random c N r).
  assert (P : forall n r, 0 < n -> poly_random_on c n r = Diverge).
  { intros n r Hn. unfold poly_random_on. destruct (Z.ltb_spec n 0); [lia|]. destruct (Z.to_nat n) as [|k] eqn:E; [lia|].
    cbn [random_scalars_on]. rewrite R. reflexivity. }
  split; [exact R|]. split.
  { intros seed L. unfold scalar_from_seed_on, gen_keypair_on. rewrite seed_rng_ok by exact L. cbn [bind]. rewrite R. split; reflexivity. }
  split; [exact P|]. split.
  - intros sh seed t rc dealer ad Ht Hs.
    destruct (new_seed_total HX seed poly_dst) as (s1 & E1 & L1). destruct (new_seed_total HX seed mega_dst) as (s2 & E2 & L2).
    assert (B : (t =? 0) || (Z.of_nat (List.length rc) <? t) = false).
    { destruct (Z.eqb_spec t 0); [lia|]. destruct (Z.ltb_spec (Z.of_nat (List.length rc)) t); [lia|reflexivity]. }
    destruct Hs as [->|(l & r & m & ->)]; unfold new_dealing_on; rewrite B, E1; cbn [bind]; rewrite (seed_rng_ok s1 L1); cbn [bind]; rewrite E2; cbn [bind].
    + rewrite P by lia. reflexivity.
    + rewrite R. reflexivity.
  - intros s m seed t rc dealer ad. unfold new_dealing_on, new_dealing.
    destruct ((t =? 0) || (Z.of_nat (List.length rc) <? t)); [split; reflexivity|].
    destruct (seed_derive seed poly_dst) as [s1| | |]; [|split; reflexivity..]. cbn [bind].
    destruct (seed_rng s1) as [rn| | |]; [|split; reflexivity..]. cbn [bind].
    destruct (seed_derive seed mega_dst) as [ms| | |]; split; reflexivity.
Qed.
Print Assumptions C106_drawing_never_ends.

(** dealings are refused under any other number: both checks return an error
    for what they accept under K256, and accept nothing *)
Theorem C106_dealings_refused : forall (X : Oracles) (GO : Grp) c, c <> 1 ->
  (forall d op t dealer n ad, publicly_verify_on c d op t dealer n ad <> Ok tt) /\
  (forall d op t dealer n ad, publicly_verify d op t dealer n ad = Ok tt -> publicly_verify_on c d op t dealer n ad = Err) /\
  (forall d sk pk ad dealer r, private_verify_on c d sk pk ad dealer r = Err).
Proof.
  intros X GO c N. pose proof (other_eqb' c N) as E. split; [|split].
  - intros. unfold publicly_verify_on. destruct (c_len (d_cm d)) as [m| | |]; [|discriminate..]. cbn [bind]. destruct (negb (m =? t)); [discriminate|].
    destruct (c_curve (d_cm d)); [|discriminate..]. cbn [bind]. rewrite E. discriminate.
  - intros d op t dealer n ad. unfold publicly_verify_on, publicly_verify. destruct (c_len (d_cm d)) as [m| | |]; [|discriminate..]. cbn [bind].
    destruct (negb (m =? t)); [discriminate|]. destruct (c_curve (d_cm d)); [|discriminate..]. cbn [bind]. rewrite E. reflexivity.
  - intros. unfold private_verify_on. rewrite E. reflexivity.
Qed.
Print Assumptions C106_dealings_refused.

(** signing and checking signatures do not refuse: they panic wherever the same
    call under K256 succeeds *)
Theorem C106_signing_panics : forall (X : Oracles) (GO : Grp) c, c <> 1 ->
  (forall pa h rn k ps l kl xl s, new_share_on c pa h rn k ps l kl xl <> Ok s) /\
  (forall s pa h rn i k ps l kl xl, share_verify_on c s pa h rn i k ps l kl xl <> Ok tt) /\
  (forall pa h rn k ps t ss s, combine_sig_on c pa h rn k ps t ss <> Ok s) /\
  (forall s pa h rn k ps, sig_verify_on c s pa h rn k ps <> Ok tt) /\
  (forall pa h rn k ps l kl xl s, new_share pa h rn k ps l kl xl = Ok s -> new_share_on c pa h rn k ps l kl xl = Panic) /\
  (forall s pa h rn i k ps l kl xl, share_verify s pa h rn i k ps l kl xl = Ok tt -> share_verify_on c s pa h rn i k ps l kl xl = Panic) /\
  (forall pa h rn k ps t ss s, combine_sig pa h rn k ps t ss = Ok s -> combine_sig_on c pa h rn k ps t ss = Panic) /\
  (forall s pa h rn k ps, sig_verify s pa h rn k ps = Ok tt -> sig_verify_on c s pa h rn k ps = Panic).
Proof.
  intros X GO c N.
  assert (A : forall h rn pa k ps r, derive_rho_on c h rn pa k ps <> Ok r) by (intros; apply other_rho_never; exact N).
  assert (B : forall {T} h rn pa k ps (f : rho_out -> res T) x, bind (derive_rho_on c h rn pa k ps) f <> Ok x).
  { intros T h rn pa k ps f x. specialize (A h rn pa k ps). destruct (derive_rho_on c h rn pa k ps) as [r| | |]; [|discriminate..]. exfalso. apply (A r). reflexivity. }
  assert (C : forall {T} h rn pa k ps (f : rho_out -> res T) g x, bind (derive_rho h rn pa k ps) f = Ok x -> bind (derive_rho_on c h rn pa k ps) (g : rho_out -> res T) = Panic).
  { intros T h rn pa k ps f g x H. apply bind_inv in H. destruct H as (r & H & _). rewrite (other_rho c N _ _ _ _ _ _ H). reflexivity. }
  repeat split.
  - intros. apply B.
  - intros. apply B.
  - intros. unfold combine_sig_on. destruct (_ <? _); [discriminate|]. apply B.
  - intros. unfold sig_verify_on. destruct (_ || _); [discriminate|]. destruct (hash_to_integer_on c h); [|discriminate..]. cbn [bind]. apply B.
  - intros pa h rn k ps l kl xl s H. eapply C. exact H.
  - intros s pa h rn i k ps l kl xl H. eapply C. exact H.
  - intros pa h rn k ps t ss s. unfold combine_sig, combine_sig_on. destruct (_ <? _); [discriminate|]. intros H. eapply C. exact H.
  - intros s pa h rn k ps. unfold sig_verify, sig_verify_on. destruct (_ || _); [discriminate|]. unfold hash_to_integer_on, from_bytes_wide_on.
    rewrite (other_eqb c N). cbn [bind]. destruct (hash_to_integer h); [|discriminate..]. cbn [bind]. intros H. eapply C. exact H.
Qed.
Print Assumptions C106_signing_panics.

(** transcripts: the operations that interpolate never succeed and panic where
    K256 succeeds; the sum of random dealings panics too unless there is
    nothing to add up, and without dealings the result consists of nil points *)
Theorem C106_transcripts : forall (X : Oracles) (GO : Grp) c, c <> 1 -> forall t ds op,
  (forall r, new_transcript_on c t ds op = Ok r ->
     op = TOther \/ (op = TRandom /\ ((ds = [] /\ 0 < t /\ r = TrNils (Z.to_nat t)) \/ (t = 0 /\ r = TrPoints (mktranscript (CSum (CPedersen []))))))) /\
  (forall r, new_transcript t ds op = Ok r -> op <> TOther -> ds <> [] -> 0 < t -> new_transcript_on c t ds op = Panic) /\
  (op = TRandom -> ds = [] -> 0 < t -> new_transcript_on c t ds op = Ok (TrNils (Z.to_nat t))).
Proof.
  intros X GO c N t ds op. pose proof (other_eqb c N) as E. split; [|split].
  - intros r. unfold new_transcript_on. destruct (check_lengths ds t); [|discriminate..]. cbn [bind]. destruct op.
    + unfold go_make. destruct (Z.ltb_spec t 0) as [Lt|Lt]; [discriminate|]. cbn [bind]. unfold gzero_on. rewrite E. intros H. right. split; [reflexivity|].
      destruct (Z.eq_dec t 0) as [->|Nt].
      * right. split; [reflexivity|]. change (Z.to_nat 0) with 0%nat in H. cbn [repeat] in H.
        assert (S : forall ds, exists o, sum_dealings_on [] ds = o /\ (forall l, o = Ok l -> l = [])).
        { clear. induction ds as [|[i d] ds IH]; [eexists; split; [reflexivity|]; intros l H; inversion H; reflexivity|]. cbn [sum_dealings_on].
          eexists. split; [reflexivity|]. intros l H. apply bind_inv in H. destruct H as (ty & _ & H). destruct (negb _); [discriminate H|].
          apply bind_inv in H. destruct H as (pts & _ & H). cbn [sum_points_on bind] in H. destruct IH as (o & IH1 & IH2). apply IH2. rewrite <- IH1. exact H. }
        destruct (S ds) as (o & S1 & S2). rewrite S1 in H. destruct o as [l| | |]; [|discriminate H..]. rewrite (S2 l eq_refl) in H.
        cbn [bind all_some] in H. inversion H. reflexivity.
      * left. destruct (Z.to_nat t) as [|k] eqn:Ek; [lia|]. destruct ds as [|[i d] ds].
        { split; [reflexivity|]. split; [lia|]. cbn [sum_dealings_on bind repeat all_some List.length] in H. rewrite repeat_length in H. inversion H. reflexivity. }
        exfalso. cbn [sum_dealings_on] in H. apply bind_inv in H. destruct H as (l & H & _). apply bind_inv in H. destruct H as (ty & _ & H).
        destruct (negb _); [discriminate H|]. apply bind_inv in H. destruct H as (pts & _ & H). rewrite other_sum_points in H. discriminate H.
    + intros H. exfalso. apply bind_inv in H. destruct H as (ty & _ & H). destruct (negb _); [discriminate H|]. apply bind_inv in H. destruct H as (n & _ & H).
      destruct (_ <? _); [discriminate H|]. apply bind_inv in H. destruct H as (cm & H & _). exact (other_interp_never c N _ _ _ _ H).
    + intros H. exfalso. apply bind_inv in H. destruct H as (ty & _ & H). destruct (negb _); [discriminate H|]. apply bind_inv in H. destruct H as (n & _ & H).
      destruct (_ <? _); [discriminate H|]. apply bind_inv in H. destruct H as (cm & H & _). exact (other_interp_never c N _ _ _ _ H).
    + intros H. exfalso. apply bind_inv in H. destruct H as (ty & _ & H). destruct (negb _); [discriminate H|]. apply bind_inv in H. destruct H as (ty' & _ & H).
      destruct (negb _); [discriminate H|]. apply bind_inv in H. destruct H as (n & _ & H). apply bind_inv in H. destruct H as (n' & _ & H).
      destruct (_ <? _); [discriminate H|]. apply bind_inv in H. destruct H as (cm & H & _). exact (other_interp_never c N _ _ _ _ H).
    + intros _. left. reflexivity.
  - intros r H No Nd Ht. unfold new_transcript_on. unfold new_transcript in H. destruct (check_lengths ds t); [|discriminate H..]. cbn [bind] in *.
    destruct op; [| | | |contradiction].
    + unfold go_make in *. destruct (Z.ltb_spec t 0) as [Lt|Lt]; [discriminate H|]. cbn [bind] in *. unfold gzero_on. rewrite E.
      destruct ds as [|[i d] ds]; [contradiction|]. destruct (Z.to_nat t) as [|k] eqn:Ek; [lia|].
      cbn [sum_dealings_on sum_dealings] in *. destruct (c_type (d_cm d)) as [ty| | |]; [|discriminate H..]. cbn [bind] in *.
      destruct (negb _); [discriminate H|]. destruct (c_points (d_cm d)); [|discriminate H..]. cbn [bind] in *. rewrite other_sum_points. reflexivity.
    + destruct (c_type p) as [ty| | |]; [|discriminate H..]. cbn [bind] in *. destruct (negb _); [discriminate H|]. destruct (c_len p); [|discriminate H..]. cbn [bind] in *.
      destruct (_ <? _); [discriminate H|]. apply bind_inv in H. destruct H as (cm & H & _). rewrite (other_interp c N _ _ _ _ H). reflexivity.
    + destruct (c_type p) as [ty| | |]; [|discriminate H..]. cbn [bind] in *. destruct (negb _); [discriminate H|]. destruct (c_len p); [|discriminate H..]. cbn [bind] in *.
      destruct (_ <? _); [discriminate H|]. apply bind_inv in H. destruct H as (cm & H & _). rewrite (other_interp c N _ _ _ _ H). reflexivity.
    + destruct (c_type l) as [ty| | |]; [|discriminate H..]. cbn [bind] in *. destruct (negb _); [discriminate H|].
      destruct (c_type r0) as [ty'| | |]; [|discriminate H..]. cbn [bind] in *. destruct (negb _); [discriminate H|].
      destruct (c_len l); [|discriminate H..]. cbn [bind] in *. destruct (c_len r0); [|discriminate H..]. cbn [bind] in *.
      destruct (_ <? _); [discriminate H|]. apply bind_inv in H. destruct H as (cm & H & _). rewrite (other_interp c N _ _ _ _ H). reflexivity.
  - intros -> -> Ht. unfold new_transcript_on. cbn [check_lengths bind]. unfold go_make. destruct (Z.ltb_spec t 0); [lia|]. cbn [bind sum_dealings_on].
    unfold gzero_on. rewrite E. destruct (Z.to_nat t) as [|k] eqn:Ek; [lia|]. cbn [repeat all_some List.length]. rewrite repeat_length. reflexivity.
Qed.
Print Assumptions C106_transcripts.

(** combining openings never succeeds either, and panics where K256 succeeds *)
Theorem C106_combining_openings : forall (GO : Grp) c, c <> 1 -> forall ixs os tc i,
  (forall o, combine_openings_on c ixs os tc i <> Ok o) /\
  (forall o, combine_openings ixs os tc i = Ok o -> combine_openings_on c ixs os tc i = Panic) /\
  (forall m, os = [] -> tc = CSum m -> combine_openings_on c ixs os tc i = Panic).
Proof.
  intros GO c N ixs os tc i. pose proof (other_eqb c N) as E.
  assert (Az : forall l, at_zero_on c l = match l with [] => Err | _ => Panic end) by (intros l; apply (other_at_zero c N)).
  assert (Nl : c_return_if_consistent tc i ONil = Panic) by (unfold c_return_if_consistent, c_check_opening; destruct (unwrap tc); reflexivity).
  assert (S : forall r, combine_openings ixs os tc i = r -> (forall o, combine_openings_on c ixs os tc i <> Ok o) /\ (forall o, r = Ok o -> combine_openings_on c ixs os tc i = Panic)).
  { intros r H. unfold combine_openings_on. unfold combine_openings in H. destruct tc as [l|l|cm|cm|]; try (rewrite Nl; split; [discriminate|reflexivity]).
    - destruct os as [|o os]; [unfold zero_on; rewrite E; split; [discriminate|reflexivity]|].
      destruct o; cbn [sum_pedersen_on sum_pedersen bind] in *; unfold zero_on; rewrite ?E; cbn [recv bind];
        (split; [discriminate|intros o Q; try reflexivity; subst r; discriminate Q]).
    - destruct cm; try (rewrite Nl; split; [discriminate|reflexivity]).
      + destruct (zip_simple ixs os) as [vs| | |]; cbn [bind] in *; try (split; [discriminate|intros o Q; subst r; (discriminate Q || reflexivity)]).
        rewrite Az. destruct (map fst vs) as [|x l']; cbn [bind] in *; (split; [discriminate|]); intros o Q; [|reflexivity]. subst r. discriminate Q.
      + destruct (zip_pedersen ixs os) as [vs| | |]; cbn [bind] in *; try (split; [discriminate|intros o Q; subst r; (discriminate Q || reflexivity)]).
        rewrite Az. destruct (map fst vs) as [|x l']; cbn [bind] in *; (split; [discriminate|]); intros o Q; [|reflexivity]. subst r. discriminate Q. }
  destruct (S _ eq_refl) as [S1 S2]. split; [exact S1|]. split; [exact S2|]. intros m -> ->. unfold combine_openings_on, zero_on. rewrite E. reflexivity.
Qed.
Print Assumptions C106_combining_openings.

(** the constants of the coordinate field: those of the curve equation and of
    RFC 9380 section 8.7 for K256, nil otherwise *)
Theorem C106_field_constants :
  (exists zero one a b sa sb sz c2,
     fe_zero_on 1 = Some zero /\ fe_one_on 1 = Some one /\ fe_a_on 1 = Some a /\ fe_b_on 1 = Some b /\
     fe_sswu_a_on 1 = Some sa /\ fe_sswu_b_on 1 = Some sb /\ fe_sswu_z_on 1 = Some sz /\ fe_sswu_c2_on 1 = Some c2 /\
     fv zero = 0 /\ fv one = 1 /\
     (forall x y, on_curve (Some (x, y)) <-> (fv y ^ 2) mod p = (fv x ^ 3 + fv a * fv x + fv b) mod p) /\
     sa = iso_A /\ sb = iso_B /\ (fv sz + 11) mod p = 0 /\ (fv c2 ^ 2 + fv sz) mod p = 0) /\
  (forall c, c <> 1 ->
     fe_zero_on c = None /\ fe_one_on c = None /\ fe_a_on c = None /\ fe_b_on c = None /\
     fe_sswu_a_on c = None /\ fe_sswu_b_on c = None /\ fe_sswu_z_on c = None /\ fe_sswu_c2_on c = None /\
     (forall b, fe_from_bytes_on c b = Ok None)).
Proof.
  split.
  - do 8 eexists. repeat (split; [reflexivity|]). split; [|split; [reflexivity|split; [reflexivity|split; vm_compute; reflexivity]]].
    intros x y. cbn [on_curve]. replace (fv (fp_of_big 0)) with 0 by (vm_compute; reflexivity). replace (fv (fp_of_big 7)) with 7 by (vm_compute; reflexivity).
    rewrite Z.mul_0_l, Z.add_0_r. reflexivity.
  - intros c N. pose proof (other_eqb c N) as E. unfold fe_zero_on, fe_one_on, fe_a_on, fe_b_on, fe_sswu_a_on, fe_sswu_b_on, fe_sswu_z_on, fe_sswu_c2_on, fe_from_bytes_on.
    rewrite E. repeat split; reflexivity.
Qed.
Print Assumptions C106_field_constants.

(** so the natural reading, that an unknown curve number is reported as an
    error, is false: each of the three other outcomes occurs *)
Theorem C106_unknown_curve_is_an_error_refuted : forall (X : Oracles) (HX : oracles_ok X) c, c <> 1 ->
  hash_to_scalar_on 1 c [] [] = Ok [None] /\ generator_h_on c = Panic /\ gen_keypair_on c (repeat 0 32) = Diverge.
Proof.
  intros X HX c N. split; [apply (other_hash c N 1 [] []); lia|]. split; [apply other_generator; exact N|].
  unfold gen_keypair_on. rewrite seed_rng_ok by reflexivity. cbn [bind]. rewrite other_random by exact N. reflexivity.
Qed.
Print Assumptions C106_unknown_curve_is_an_error_refuted.

(** the hypotheses are met: calls that succeed under K256, made with curve 0 *)
Example C106_ex_signature : exists sg,
  sig_verify (X := Toy.toyX) (GO := Toy.toyG) sg [] [1] [] PropSign.ex_key PropSign.ex_presig = Ok tt /\
  sig_verify_on (X := Toy.toyX) (GO := Toy.toyG) 0 sg [] [1] [] PropSign.ex_key PropSign.ex_presig = Panic.
Proof.
  destruct PropPresig.C74_ex_accepted as [sg V]. exists sg. split; [exact V|].
  apply (proj2 (proj2 (proj2 (proj2 (proj2 (proj2 (proj2 (C106_signing_panics Toy.toyX Toy.toyG 0 ltac:(discriminate)))))))) _ _ _ _ _ _ V).
Qed.
Example C106_ex_dealing : exists d,
  publicly_verify (X := ToyShort.shortX) (GO := Toy.toyG) d TRandom 2 0 3 (str "ad") = Ok tt /\
  publicly_verify_on (X := ToyShort.shortX) (GO := Toy.toyG) 0 d TRandom 2 0 3 (str "ad") = Err.
Proof.
  destruct PropCorruptAll.C101_ex as (d & _ & _ & V & _). exists d. split; [exact V|].
  exact (proj1 (proj2 (C106_dealings_refused ToyShort.shortX Toy.toyG 0 ltac:(discriminate))) _ _ _ _ _ _ V).
Qed.
Example C106_ex_transcript : exists d t,
  new_transcript (GO := Toy.toyG) 2 [(4, d)] TRandom = Ok t /\ new_transcript_on (GO := Toy.toyG) 0 2 [(4, d)] TRandom = Panic.
Proof.
  destruct PropReveal.C92_ex_transcript as (d & t & _ & _ & E & _). exists d, t. split; [exact E|].
  refine (proj1 (proj2 (C106_transcripts Toy.toyX Toy.toyG 0 ltac:(discriminate) 2 [(4, d)] TRandom)) t E _ _ _); [discriminate|discriminate|lia].
Qed.
Example C106_ex_openings : forall (GO : Grp) (GL : GrpLaws GO) v m i,
  combine_openings [3] [OPedersen v m] (CSum (CPedersen [pedersen v m])) i = Ok (OPedersen v m) /\
  combine_openings_on 0 [3] [OPedersen v m] (CSum (CPedersen [pedersen v m])) i = Panic.
Proof.
  intros GO GL v m i.
  assert (K : combine_openings [3] [OPedersen v m] (CSum (CPedersen [pedersen v m])) i = Ok (OPedersen v m)).
  { unfold combine_openings. cbn [sum_pedersen bind]. replace (fadd fzero v) with v by ring. replace (fadd fzero m) with m by ring.
    unfold c_return_if_consistent, c_check_opening. cbn [unwrap]. unfold eval_points. cbn [rev app fold_left bind].
    rewrite ProofCommit.mul_by_node_index_spec, GroupFacts.smul_gzero, gadd_0_l, GroupFacts.geqb_refl. reflexivity. }
  split; [exact K|]. exact (proj1 (proj2 (C106_combining_openings GO 0 ltac:(discriminate) _ _ _ _)) _ K).
Qed.
