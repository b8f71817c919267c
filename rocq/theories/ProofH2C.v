(** Hash to curve: the map is RFC 9380's and lands on the curve. *)
From Coq Require Import ZArith Lia Bool String List Ring Field Field_theory.
From Verif Require Import Base BaseFacts Zmod Fields ModelScalar ProofScalar ModelXmd ProofXmd ModelSecp SpecSecp ProofFp ProofFastP ProofCurve ProofCodec SpecH2C ModelH2C.
Import ListNotations.
Open Scope Z_scope.

Lemma fe_sign_spec a : fe_sign a = sgn0 a.
Proof.
  unfold fe_sign, sgn0, reverse_bytes. assert (L : List.length (field_bytes a) = 32%nat) by apply le_bytes_length.
  rewrite rev_nth by (rewrite L; lia). rewrite L. change (32 - 32)%nat with 0%nat. apply field_byte0.
Qed.
Lemma sa_eq : sswu_a = iso_A. Proof. reflexivity. Qed.
Lemma sb_eq : sswu_b = iso_B. Proof. reflexivity. Qed.
Lemma sz_eq : sswu_z = sswu_Z. Proof. apply fe_eq; vm_compute; reflexivity. Qed.
Lemma c2_eq : fmul sswu_c2 sswu_c2 = fneg sswu_Z. Proof. apply fe_eq; vm_compute; reflexivity. Qed.
Lemma A_nz : iso_A <> fzero. Proof. unfold iso_A. fp_nz. Qed.
Lemma Z_nz : sswu_Z <> fzero. Proof. unfold sswu_Z. fp_nz. Qed.

Lemma sqrt_ratio_spec u v : v <> fzero -> exists y,
  (sqrt_ratio u v = Ok (y, true) /\ fmul (fmul y y) v = u) \/
  (sqrt_ratio u v = Ok (y, false) /\ fmul (fmul y y) v = fmul sswu_Z u /\ ~ is_square (fmul u v)).
Proof.
  intros Nv. unfold sqrt_ratio. rewrite (proj2 (feqb_neq _ _ _) Nv). cbv zeta.
  set (t := fmul (fmul v v) (fmul u v)). set (y1 := fmul (fe_progenitor t) (fmul u v)).
  pose proof p4_pos as P4.
  assert (S : fmul (fmul y1 y1) v = fmul u (fpow t (2 * ((p + 1) / 4) - 1))).
  { unfold y1, fe_progenitor. rewrite p34. replace (2 * ((p + 1) / 4) - 1) with ((p + 1) / 4 - 1 + ((p + 1) / 4 - 1) + 1) by lia.
    rewrite !fpow_add, fpow_1 by lia. generalize (fpow t ((p + 1) / 4 - 1)). intros f. unfold t. ring. }
  assert (D : fmul (fmul y1 y1) v = u \/ fmul (fmul y1 y1) v = fneg u /\ ~ is_square (fmul u v)).
  { destruct (fe_dec p t fzero) as [T|T].
    - assert (u = fzero) as ->.
      { unfold t in T. apply fp_int in T. destruct T as [T|T]; [exfalso; revert T; now apply fp_neq0|]. apply fp_int in T. tauto. }
      left. rewrite S. ring.
    - destruct (half_pow t T) as [E|E]; rewrite E in S.
      + left. rewrite S. ring.
      + right. split; [rewrite S; ring|]. intros Q. assert (Qt : is_square t) by (apply square_mul; [exists v; reflexivity|exact Q]).
        rewrite (square_half t T Qt) in E. exact (neg_one_neq E). }
  destruct (feqb (fmul (fmul y1 y1) v) u) eqn:E.
  - exists y1. left. apply feqb_eq in E. split; [reflexivity|exact E].
  - apply feqb_neq in E. destruct D as [D|[D Q]]; [contradiction|]. exists (fmul y1 sswu_c2). right.
    split; [reflexivity|]. split; [|exact Q]. pose proof c2_eq as C.
    transitivity (fmul (fmul sswu_c2 sswu_c2) (fmul (fmul y1 y1) v)); [ring|]. rewrite C, D. ring.
Qed.

(** the exceptional x-coordinate B/(Z A) has a point *)
Lemma exceptional_square : square (iso_g (fdiv iso_B (fmul sswu_Z iso_A))).
Proof.
  assert (E : fdiv iso_B (fmul sswu_Z iso_A) = of_Z p 0xbb407e4438dd90ca6ba40716591522757e5c173c7232ad8b6c8bcd97de490391).
  { assert (B : iso_B = fmul (of_Z p 0xbb407e4438dd90ca6ba40716591522757e5c173c7232ad8b6c8bcd97de490391) (fmul sswu_Z iso_A)) by (apply fe_eq; vm_compute; reflexivity).
    rewrite B at 1. generalize (of_Z p 0xbb407e4438dd90ca6ba40716591522757e5c173c7232ad8b6c8bcd97de490391) as x.
    pose proof A_nz as NA. pose proof Z_nz as NZ. revert NA NZ. generalize iso_A sswu_Z. intros a z NA NZ x. field. auto. }
  rewrite E. exists (of_Z p 0x2899ff0720f53efb09af4823587b279e148bb16bed075ba60fc2a97aff6ae188). apply fe_eq; vm_compute; reflexivity.
Qed.

(** the isogeny *)
Definition iso_xk : Fp := of_Z p 0x89291c84de3e11f1041da6957255eed5fc964a4df050df221d6ad4ce6ab9c5a5.
Lemma kernel_no_point y : fmul y y <> iso_g iso_xk.
Proof.
  intros H. apply (square_not_neg (iso_g iso_xk)).
  - intros E. apply (f_equal (@fv p)) in E. vm_compute in E. discriminate E.
  - exists y. now rewrite H.
  - exists (of_Z p 0x8f537eefdfc1606a0727cd69b4a7333d38ed44e3932a7179eecb4b6fba9360dc). apply fe_eq; vm_compute; reflexivity.
Qed.
Lemma xden_eq x : iso_xden x = fmul (fsub x iso_xk) (fsub x iso_xk).
Proof.
  unfold iso_xden, poly3. assert (E1 : of_Z p 0xedadc6f64383dc1df7c4b2d51b54225406d36b641f5e41bbc52a56612a8c6d14 = fneg (fadd iso_xk iso_xk)) by (apply fe_eq; vm_compute; reflexivity).
  assert (E0 : of_Z p 0xd35771193d94918a9ca34ccbb7b640dd86cd409542f8487d9fe6b745781eb49b = fmul iso_xk iso_xk) by (apply fe_eq; vm_compute; reflexivity).
  rewrite E1, E0. generalize iso_xk. intros k. ring.
Qed.
Lemma yden_eq x : iso_yden x = fmul (fmul (fsub x iso_xk) (fsub x iso_xk)) (fsub x iso_xk).
Proof.
  unfold iso_yden, poly3. assert (E2 : of_Z p 0x6484aa716545ca2cf3a70c3fa8fe337e0a3d21162f0d6299a7bf8192bfd2a76f = fneg (fmul (of_Z p 3) iso_xk)) by (apply fe_eq; vm_compute; reflexivity).
  assert (E1 : of_Z p 0x7a06534bb8bdb49fd5e9e6632722c2989467c1bfc8e8d978dfb425d2685c2573 = fmul (of_Z p 3) (fmul iso_xk iso_xk)) by (apply fe_eq; vm_compute; reflexivity).
  assert (E0 : of_Z p 0xfffffffffffffffffffffffffffffffffffffffffffffffffffffffefffff93b = fneg (fmul (fmul iso_xk iso_xk) iso_xk)) by (apply fe_eq; vm_compute; reflexivity).
  rewrite E2, E1, E0. generalize iso_xk. intros k. ring.
Qed.
Local Notation K0 := (of_Z p (-399123851984612706353729532598214157616396082624613588190439068902265169654310966848443062282979802355022143170618493718523923695870893455113779876383470417731066569722871764943852523412773907359667898499517086786372394276441178704529968176331487454838392299986710854148351642961920029595500380987392244578873077564203563248083196205782268268012720365354189993794373312961986874733575730722907802045023951411265131617835834442883802793612908796805654289593218918)).
Local Notation K1 := (of_Z p (38600298135677754174088476858004637355909025906007012112485505384878086689142524159323777969207992945784976598929136250574337005141915555652292335339720799528372905675016513393956759245683726543079851145409908589516300980593702144084726999285880021253726853719751445810389112627365993337843641608108147231756726956305027889371495893780121883585685227425030432717998707106661354363403783)).
Local Notation K2 := (of_Z p (-1555472702640192771073151921274742904080684973566370136816630759259384900163055473289170249823843973638198452172590626160883787048125717642334083591477051345481095152372317572065955858037903912816787976631267906779533256789026041598207871706394483714785559322773133484413584291190787453289011549783435857068945)).
Local Notation K3 := (of_Z p (32850385109763054940575966155839139312668177093271519206603643765609983096756984244498448834067731356726181197716160425100466402674519906734342982770020537681623257687212479862647966013072996736622901336770885531866409193736723066536)).
Local Notation K4 := (of_Z p (-223367796099519043964608991334329461098605135505245485307278563920549242280672884476390533611618711721083372438386150446464200667319299089669512750861110747996163654944485033016279108188508391459580836596295252611892605557841102598)).
Local Notation K5 := (of_Z p (-831656252633662755089907059034661685265366218430875573024515914230514826178014535231560044726486312103194632252102542905168089731880353109510273773262673705158461903211239079107824499611258037806802717581860566640365111344349466714)).
Local Notation K6 := (of_Z p (-880374726304799800656008658791119469311635019564596638177959118078031562581734565377277845771469509804363136011569721317336446967244943633385456515707443983180945536182284755221821792289690673936286680219679450404410007733900082145)).
Local Notation K7 := (of_Z p (-304691143884910826315241084391430577987098720453048500703050989446550741432124472659869271371299615419713554316867883923097512973871102322414440545681902305804445384726614383338756953315091780597958024908915154361078554048460188055)).
Local Notation K8 := (of_Z p (-467741257984904175412999490754027159614195900199705215467114254135669165644199807645983830137328473216264625966021148187190349636555726564447370950336848431272377503295580202307546711324011336245069218282193726317040012034340706520)).
Local Notation K9 := (of_Z p (-266206805950052972419235166060099889447339852043329322897642667699910527153184757488046760817890894819507044181515303520856043037957794422040384627623864138572045034164308956091242245039690417735342728219326265744388716942505194160)).
Lemma K0_0 : K0 = fzero. Proof. apply fe_eq; vm_compute; reflexivity. Qed.
Lemma K1_0 : K1 = fzero. Proof. apply fe_eq; vm_compute; reflexivity. Qed.
Lemma K2_0 : K2 = fzero. Proof. apply fe_eq; vm_compute; reflexivity. Qed.
Lemma K3_0 : K3 = fzero. Proof. apply fe_eq; vm_compute; reflexivity. Qed.
Lemma K4_0 : K4 = fzero. Proof. apply fe_eq; vm_compute; reflexivity. Qed.
Lemma K5_0 : K5 = fzero. Proof. apply fe_eq; vm_compute; reflexivity. Qed.
Lemma K6_0 : K6 = fzero. Proof. apply fe_eq; vm_compute; reflexivity. Qed.
Lemma K7_0 : K7 = fzero. Proof. apply fe_eq; vm_compute; reflexivity. Qed.
Lemma K8_0 : K8 = fzero. Proof. apply fe_eq; vm_compute; reflexivity. Qed.
Lemma K9_0 : K9 = fzero. Proof. apply fe_eq; vm_compute; reflexivity. Qed.
Lemma iso_identity x :
  fmul (iso_g x) (fmul (iso_ynum x) (iso_ynum x)) =
  fadd (fmul (fmul (iso_xnum x) (iso_xnum x)) (iso_xnum x)) (fmul (of_Z p 7) (fmul (fmul (iso_xden x) (iso_xden x)) (iso_xden x))).
Proof.
  rewrite xden_eq. apply fsub_eq0. transitivity (fadd (fmul (fadd (fmul (fadd (fmul (fadd (fmul (fadd (fmul (fadd (fmul (fadd (fmul (fadd (fmul (fadd (fmul (K9) x) K8) x) K7) x) K6) x) K5) x) K4) x) K3) x) K2) x) K1) x) K0).
  - unfold iso_g, iso_ynum, iso_xnum, poly3, iso_A, iso_B, iso_xk. ring.
  - rewrite K0_0, K1_0, K2_0, K3_0, K4_0, K5_0, K6_0, K7_0, K8_0, K9_0. ring.
Qed.
Lemma den_nz x y : fmul y y = iso_g x -> fsub x iso_xk <> fzero.
Proof. intros H E. apply fsub_eq0 in E. rewrite E in H. exact (kernel_no_point y H). Qed.
Lemma iso_nz x y : fmul y y = iso_g x -> iso_xden x <> fzero /\ iso_yden x <> fzero.
Proof. intros H. pose proof (den_nz _ _ H). rewrite xden_eq, yden_eq. split; repeat apply fp_neq0; assumption. Qed.
Lemma iso_on_curve x y : fmul y y = iso_g x ->
  eqn (fdiv (iso_xnum x) (iso_xden x)) (fdiv (fmul y (iso_ynum x)) (iso_yden x)).
Proof.
  intros H. pose proof (den_nz _ _ H) as N. pose proof (iso_identity x) as I. rewrite xden_eq in *. rewrite yden_eq. rewrite <- H in I. unfold eqn.
  revert N I. generalize (fsub x iso_xk) (iso_xnum x) (iso_ynum x). intros d xn yn N I.
  apply fsub_eq0. transitivity (fdiv (fsub (fmul (fmul y y) (fmul yn yn)) (fadd (fmul (fmul xn xn) xn) (fmul (of_Z p 7) (fmul (fmul (fmul d d) (fmul d d)) (fmul d d))))) (fmul (fmul (fmul d d) (fmul d d)) (fmul d d))); [field; exact N|].
  rewrite I. field. exact N.
Qed.
Lemma fmul_00 (a b : Fp) : fmul (fmul fzero a) b = fzero. Proof. ring. Qed.
Lemma fdiv_0 (a b : Fp) : fdiv (fmul fzero a) b = fzero. Proof. rewrite (Fdiv_def Fp_field), fmul_00. reflexivity. Qed.
Lemma iso_g_y x y : fmul y y = iso_g x -> y <> fzero.
Proof.
  intros H E. apply (eqn_y _ _ (iso_on_curve x y H)). rewrite E. apply fdiv_0.
Qed.
Lemma horner3 (x a3 a2 a1 a0 : Fp) : x3c1_x2c2_xc3_c4 x a3 a2 a1 a0 = poly3 a0 a1 a2 a3 x.
Proof. unfold x3c1_x2c2_xc3_c4, poly3. ring. Qed.
Lemma horner2 (x a1 a0 : Fp) : x2_xc1_c2 x a1 a0 = poly3 a0 a1 fone fzero x.
Proof. unfold x2_xc1_c2, poly3. ring. Qed.
Lemma horner3m (x a2 a1 a0 : Fp) : x3_x2c1_xc2_c3 x a2 a1 a0 = poly3 a0 a1 a2 fone x.
Proof. unfold x3_x2c1_xc2_c3, x2_xc1_c2, poly3. ring. Qed.
Lemma frac_eq (xn xd yn yd y : Fp) : xd <> fzero -> yd <> fzero ->
  (fmul xn (fmul (finv (fmul xd yd)) yd), fmul y (fmul yn (fmul (finv (fmul xd yd)) xd))) = (fdiv xn xd, fdiv (fmul y yn) yd).
Proof. intros N1 N2. apply f_equal2; field; auto. Qed.
Lemma isogeny_spec x y : fmul y y = iso_g x ->
  sswu_isogeny x y = (fdiv (iso_xnum x) (iso_xden x), fdiv (fmul y (iso_ynum x)) (iso_yden x)).
Proof.
  intros H. destruct (iso_nz _ _ H) as [N1 N2]. unfold sswu_isogeny. cbv zeta. rewrite !horner3, horner2, horner3m.
  exact (frac_eq (iso_xnum x) (iso_xden x) (iso_ynum x) (iso_yden x) y N1 N2).
Qed.
