(** The model with the primitives of ModelHashes and the curve secp256k1:
    C78, C79.  The known answers are those of the tests in /repo. *)
From Coq Require Import ZArith Lia Bool String List.
From Verif Require Import Base BaseFacts Zmod Fields ModelScalar ModelSecp ModelXmd ModelHashes ModelRo ModelRoPoints ModelH2C ModelGroup
  ModelPoly ModelCommit ModelMega ModelMegaKey ModelKey ModelDealing ModelSign SpecXmd SpecH2C SpecSecp SpecSign ProofCurve ProofAb ProofOrder
  ProofFp ProofSecp ProofHashes ProofCert ProofFast PropSecp.
Import ListNotations.
Open Scope Z_scope.

Local Notation c := (of_Z p).

(** ** C78: curve/point.go:51-62, the constant of GeneratorH *)

Definition h_input : bytes := str "h".
Definition h_dst : bytes := str "ic-crypto-tecdsa-secp256k1-generator-h".
Theorem C78_generator_h_is_hashed : forall fuel, exists r,
  @hash_to_curve_ro (realX fuel) h_input h_dst = Ok r /\ generator_h = Ok (Some r) /\
  on_curve r /\ r <> None.
Proof.
  intros fuel. exists (cp cgenH). split; [|split; [exact generator_h_val|split; [apply curve_iff; apply cp_curve|discriminate]]].
  change (cp cgenH) with (Some (c hx, c hy)).
  apply (h2c_check_sound fuel h_input h_dst
    (mkmc 94230650810508690649036862401625224355701941662106804919559328804395768031867 4545208998296638646747829040389316660370801008266591952847212682731604005804 true 69179999607214290507181799988570724820093876395708925374916194483408519038892 4545208998296638646747829040389316660370801008266591952847212682731604005804 69179999607214290507181799988570724820093876395708925374916194483408519038892
    81157585761964460213429746389798997253010867087274909769631390962722150135242 26246433517953420596834800966237625783244002051180147259805350047084409186798)
    (mkmc 10731906342582592549414046732319958788410458911114387903703689852276626392504 100392519785606444159876228026147959348566671118755148806410519983900763587882 false 82901679173264881726281981518213170732555334842302216380383494799698096010967 63075345677101360037732582280983998801754708859920694805009916257175073906845 42051930173972082652953512550333449634847739214689971899764641705714884043705
    68099963463501393682139985003783254036814994537697244863348806133328012909064 85500719951480156808577806028878837625880078061516712191479652676074856921838)
    108953928353506454355444013176287987301875485741743421841011139904976348457829 hx hy).
  vm_cast_no_check (eq_refl true).
Qed.
Print Assumptions C78_generator_h_is_hashed.

(** curve/hash_to_curve_test.go:31-47, by certificate *)
Definition kat_dst : bytes := str "QUUX-V01-CS02-with-secp256k1_XMD:SHA-256_SSWU_RO_".
Check (h2c_check_sound 10 (str "") kat_dst
    (mkmc 58057042122579360002939709009788950381730638989854296777747251541353233145689 96317684004904384179518517548973609027803913136337348382970617826508133948435 true 35818759031592566596508097660387199056212228016403292976503030934193536258945 96317684004904384179518517548973609027803913136337348382970617826508133948435 35818759031592566596508097660387199056212228016403292976503030934193536258945
    52612502224554783378373173901451232986082207039073119722615616373821514817310 87503060825167445681357530345323608622569264298922289871630872196554676046134)
    (mkmc 50429204580357439306582320779238692877686968955862593996034448316367291897541 109426648461575963551471085371433334895797169013926583750555132012854151504912 true 14317805416726019491998339265018448649333075687522023871270729841799234569550 109426648461575963551471085371433334895797169013926583750555132012854151504912 14317805416726019491998339265018448649333075687522023871270729841799234569550
    30906647205194791451707890013777065300332910975452506974274900746137990835811 68263117681243689545919624196581033804089404979326896961713332473152777543878)
    45047774906698116895482679439635121374549185929403719177724960919451849516257
    0xc1cae290e291aee617ebaef1be6d73861479c48b841eaba9b7b5852ddfeb1346
    0x64fa678e07ae116126f08b022a94af6de15985c996c3a91b64c406a960e51067 (@eq_refl bool true <: h2c_check (str "") kat_dst
    (mkmc 58057042122579360002939709009788950381730638989854296777747251541353233145689 96317684004904384179518517548973609027803913136337348382970617826508133948435 true 35818759031592566596508097660387199056212228016403292976503030934193536258945 96317684004904384179518517548973609027803913136337348382970617826508133948435 35818759031592566596508097660387199056212228016403292976503030934193536258945
    52612502224554783378373173901451232986082207039073119722615616373821514817310 87503060825167445681357530345323608622569264298922289871630872196554676046134)
    (mkmc 50429204580357439306582320779238692877686968955862593996034448316367291897541 109426648461575963551471085371433334895797169013926583750555132012854151504912 true 14317805416726019491998339265018448649333075687522023871270729841799234569550 109426648461575963551471085371433334895797169013926583750555132012854151504912 14317805416726019491998339265018448649333075687522023871270729841799234569550
    30906647205194791451707890013777065300332910975452506974274900746137990835811 68263117681243689545919624196581033804089404979326896961713332473152777543878)
    45047774906698116895482679439635121374549185929403719177724960919451849516257
    0xc1cae290e291aee617ebaef1be6d73861479c48b841eaba9b7b5852ddfeb1346
    0x64fa678e07ae116126f08b022a94af6de15985c996c3a91b64c406a960e51067 = true)
  : @hash_to_curve_ro (realX 10) (str "") kat_dst =
    Ok (Some (c 0xc1cae290e291aee617ebaef1be6d73861479c48b841eaba9b7b5852ddfeb1346, c 0x64fa678e07ae116126f08b022a94af6de15985c996c3a91b64c406a960e51067))).
Check (h2c_check_sound 10 (str "abc") kat_dst
    (mkmc 8772949712675871307975074402064985445164432129069910775576927500367828979411 109847960678874069395357325452026395105140293515447328048593769534097129836981 true 26747645647114029413939469563206094538114691466623191143901133893381837269477 109847960678874069395357325452026395105140293515447328048593769534097129836981 26747645647114029413939469563206094538114691466623191143901133893381837269477
    3557685970197596859953508968438416718889363307970665817650639012424087446231 43544891000947365689010465009758920915309454447865896522422922230461874746175)
    (mkmc 78504194137991542706069471979206037074807686082572645846278784843938696233178 95747712435547668378765549993819480138391130494145532428970724587426680705447 true 24586358576631698449083237381902966339991415142283656103974565296768092405604 95747712435547668378765549993819480138391130494145532428970724587426680705447 24586358576631698449083237381902966339991415142283656103974565296768092405604
    105812216344202227492451318729010534248021213749809702606364386615834069573496 91833300200132185197494294665843718849408309150978338355178047042443573401523)
    22823901346242972295105175941240381646785171456849135879283132601942343177930
    0x3377e01eab42db296b512293120c6cee72b6ecf9f9205760bd9ff11fb3cb2c4b
    0x7f95890f33efebd1044d382a01b1bee0900fb6116f94688d487c6c7b9c8371f6 (@eq_refl bool true <: h2c_check (str "abc") kat_dst
    (mkmc 8772949712675871307975074402064985445164432129069910775576927500367828979411 109847960678874069395357325452026395105140293515447328048593769534097129836981 true 26747645647114029413939469563206094538114691466623191143901133893381837269477 109847960678874069395357325452026395105140293515447328048593769534097129836981 26747645647114029413939469563206094538114691466623191143901133893381837269477
    3557685970197596859953508968438416718889363307970665817650639012424087446231 43544891000947365689010465009758920915309454447865896522422922230461874746175)
    (mkmc 78504194137991542706069471979206037074807686082572645846278784843938696233178 95747712435547668378765549993819480138391130494145532428970724587426680705447 true 24586358576631698449083237381902966339991415142283656103974565296768092405604 95747712435547668378765549993819480138391130494145532428970724587426680705447 24586358576631698449083237381902966339991415142283656103974565296768092405604
    105812216344202227492451318729010534248021213749809702606364386615834069573496 91833300200132185197494294665843718849408309150978338355178047042443573401523)
    22823901346242972295105175941240381646785171456849135879283132601942343177930
    0x3377e01eab42db296b512293120c6cee72b6ecf9f9205760bd9ff11fb3cb2c4b
    0x7f95890f33efebd1044d382a01b1bee0900fb6116f94688d487c6c7b9c8371f6 = true)
  : @hash_to_curve_ro (realX 10) (str "abc") kat_dst =
    Ok (Some (c 0x3377e01eab42db296b512293120c6cee72b6ecf9f9205760bd9ff11fb3cb2c4b, c 0x7f95890f33efebd1044d382a01b1bee0900fb6116f94688d487c6c7b9c8371f6))).
Check (h2c_check_sound 10 (str "abcdef0123456789") kat_dst
    (mkmc 35973229945356556582135797650924553795636593472709754082737310315159114723202 66607545685679010098210631225027096497844066674646581222386193819091712230318 true 36660099919041492707890965832372138238923467602387686976169855944167963371031 66607545685679010098210631225027096497844066674646581222386193819091712230318 36660099919041492707890965832372138238923467602387686976169855944167963371031
    39544271184211314664642288049938587825918400210048300518913430232179447974749 45337809854580209018990635111527061715728393306086056952774729111346570732483)
    (mkmc 94052507677735467616186592025850519103887867565853864929676068866661179680499 64194511559750490853478619256035491267414370428644296524684110489113862940138 true 102352885279598387049455667780191904281516840171708369876930321669597547584074 64194511559750490853478619256035491267414370428644296524684110489113862940138 102352885279598387049455667780191904281516840171708369876930321669597547584074
    112451734755426834716648727358299441967457432883933738090080934024500761239544 81063536041005174460194413543313074086488650157769284612643288531187436138327)
    38027559820228023981920823632148335769832061651044188416228814599308990742339
    0xbac54083f293f1fe08e4a70137260aa90783a5cb84d3f35848b324d0674b0e3a
    0x4436476085d4c3c4508b60fcf4389c40176adce756b398bdee27bca19758d828 (@eq_refl bool true <: h2c_check (str "abcdef0123456789") kat_dst
    (mkmc 35973229945356556582135797650924553795636593472709754082737310315159114723202 66607545685679010098210631225027096497844066674646581222386193819091712230318 true 36660099919041492707890965832372138238923467602387686976169855944167963371031 66607545685679010098210631225027096497844066674646581222386193819091712230318 36660099919041492707890965832372138238923467602387686976169855944167963371031
    39544271184211314664642288049938587825918400210048300518913430232179447974749 45337809854580209018990635111527061715728393306086056952774729111346570732483)
    (mkmc 94052507677735467616186592025850519103887867565853864929676068866661179680499 64194511559750490853478619256035491267414370428644296524684110489113862940138 true 102352885279598387049455667780191904281516840171708369876930321669597547584074 64194511559750490853478619256035491267414370428644296524684110489113862940138 102352885279598387049455667780191904281516840171708369876930321669597547584074
    112451734755426834716648727358299441967457432883933738090080934024500761239544 81063536041005174460194413543313074086488650157769284612643288531187436138327)
    38027559820228023981920823632148335769832061651044188416228814599308990742339
    0xbac54083f293f1fe08e4a70137260aa90783a5cb84d3f35848b324d0674b0e3a
    0x4436476085d4c3c4508b60fcf4389c40176adce756b398bdee27bca19758d828 = true)
  : @hash_to_curve_ro (realX 10) (str "abcdef0123456789") kat_dst =
    Ok (Some (c 0xbac54083f293f1fe08e4a70137260aa90783a5cb84d3f35848b324d0674b0e3a, c 0x4436476085d4c3c4508b60fcf4389c40176adce756b398bdee27bca19758d828))).

(** ** C79: everything else is stated for all primitives with the right output
    lengths and all groups with the laws; the real ones are among them *)
Theorem C79_primitives : forall fuel,
  oracles_ok (realX fuel) /\ GrpLaws (@secpG (realX fuel)) /\
  (forall m, blen (real_sha256 m) = 32) /\ (forall k m, blen (real_hmac512 k m) = 64).
Proof.
  intros fuel. pose proof (realX_ok fuel) as H. split; [exact H|]. split; [exact (secpL H)|].
  split; intros; unfold blen; [exact (f_equal Z.of_nat (sha256_len _ H m))|exact (f_equal Z.of_nat (hmac_len _ H k m))].
Qed.
(** so with them an accepted signature is an ECDSA signature on secp256k1 *)
Theorem C79_accepted_signatures : forall fuel pa h rnd (key presig : @transcript (@secpG (realX fuel))) sg, blen h <= 32 ->
  sig_verify (X := realX fuel) (GO := @secpG (realX fuel)) sg pa h rnd key presig = Ok tt ->
  exists pk pkb ch K w x y, on_curve pk /\ point_serialize pk = Ok pkb /\
    tr_constant_term key = Ok K /\ derive_public_key (X := realX fuel) (GO := @secpG (realX fuel)) (ser K) pa = Ok (pkb, ch) /\
    fmul w (sg_s sg) = fone /\
    pt_add (pt_mul (fmul (of_Z q (bits2int h)) w) pt_gen) (pt_mul (fmul (sg_r sg) w) pk) = Some (x, y) /\
    fv x mod q = fv (sg_r sg).
Proof. intros fuel. exact (C62_accepted_signatures_on_secp256k1 (realX fuel) (realX_ok fuel)). Qed.
Print Assumptions C79_primitives.
Print Assumptions C79_accepted_signatures.

(** *** known answers, checked when this file is compiled *)
Definition ok32 (r : res bytes) (v : Z) : bool :=
  match r with Ok b => bytes_eqb b (be_bytes 32 v) | _ => false end.
Local Notation RX := (realX 10).
(** curve/hash_to_curve_test.go:16-30 *)
Definition long_dst : bytes := str "QUUX-V01-CS02-with-expander-SHA256-128-long-DST-" ++ repeat 49 208.
Check (@eq_refl bool true <: ok32 (@expand_message_xmd RX (str "") (str "QUUX-V01-CS02-with-expander-SHA256-128") 32)
  0x68a985b87eb6b46952128911f2a4412bbc302a9d759667f87f7a21d803f07235 = true).
Check (@eq_refl bool true <: ok32 (@expand_message_xmd RX (str "abc") (str "QUUX-V01-CS02-with-expander-SHA256-128") 32)
  0xd8ccab23b5985ccea865c6c97b6e5b8350e794e603b4b97902f53a8a0d605615 = true).
Check (@eq_refl bool true <: ok32 (@expand_message_xmd RX (str "") (long_dst) 32)
  0xe8dc0c8b686b7ef2074086fbdd2f30e3f8bfbd3bdf177f73f04b97ce618a3ed3 = true).
Check (@eq_refl bool true <: ok32 (@expand_message_xmd RX (str "abc") (long_dst) 32)
  0x52dbf4f36cf560fca57dedec2ad924ee9c266341d8f3d6afe5171733b16bbb12 = true).
(** RFC 4231 sections 4.2 and 4.7, and a key of 100 bytes, which is not hashed *)
Check (@eq_refl bool true <: bytes_eqb (real_hmac512 (repeat 11 20) (str "Hi There")) (be_bytes 64
  0x87aa7cdea5ef619d4ff0b4241a1d6cb02379f4e2ce4ec2787ad0b30545e17cdedaa833b7d6b8a702038b274eaea3f4e4be9d914eeb61f1702e696c203a126854) = true).
Check (@eq_refl bool true <: bytes_eqb (real_hmac512 (repeat 170 131) (str "Test Using Larger Than Block-Size Key - Hash Key First")) (be_bytes 64
  0x80b24263c7c1a3ebb71493c1dd7be8b49b46d1f41b4aeec1121b013783f8f3526b56d037e05f2598bd0fd2215d6a1e5295e64f73f63f0aec8b915a985d786598) = true).
Check (@eq_refl bool true <: bytes_eqb (real_hmac512 (repeat 5 100) (str "abc")) (be_bytes 64
  0x42dcba00368402b820a142570cb365d1a9e9de45ff11ee36e9e87711a42dba9961b10ad1e956e0001d921ef6a3cb5791842f918f09c5bd186760e61fdaa388b9) = true).
(** curve/point_test.go:71-80 *)
Check (@eq_refl bool true <: match @hash_to_scalar RX 1 (str "known answer test input") (str "domain sep") with
  | Ok [s] => fv s =? 0x3670f931a6cbff777594bf1488812b63895dfe5df9814584dfd231f69a66541a | _ => false end = true).
(** curve/point_test.go:96-101 *)
Example C79_wide : match scalar_from_bytes_wide (be_bytes 62 0x5465872a72824a73539f16e825035c403a2596407116900d47141fca8cbfd9a638af75a71310b08fe6351dd302b820c86b15e71ea73c78c876c1f88338a0) with
  | Ok s => fv s =? 0x5bc912d1f858a44805b5bcf9809751eb7ca8cd5efe9b9bef62374b55a857ba1b | _ => false end = true.
Proof. vm_cast_no_check (eq_refl true). Qed.
(** seed/seed_test.go:9-27 *)
Definition seed_output (s : res bytes) : res bytes :=
  do s <- s; do r <- seed_rng s; Ok (fst (@fill_uint8 RX r (repeat 0 32))).
Definition seed42 : res bytes := @seed_from_bytes RX (repeat 42 32).
Definition derived (s : res bytes) (l : string) : res bytes := do s <- s; @seed_derive RX s (str l).
Check (@eq_refl bool true <: ok32 (seed_output seed42) 0x21b03e2c906a3c20d8159b65a459991238fd3bfb8a36c0af904cd1b12a109853 = true).
Check (@eq_refl bool true <: ok32 (seed_output (derived seed42 "label1")) 0x6f3377835641b9ea865e077ae3d09806fa7cd77af4ad7a6674400d8e0683517a = true).
Check (@eq_refl bool true <: ok32 (seed_output (derived (derived seed42 "label1") "label2")) 0x545e10f21a984c7f33a03ffb1be596ae967f7b397fd086d76ccf71b3f2a43ef3 = true).
Check (@eq_refl bool true <:
  match (do s <- seed42; do r <- seed_rng s; do s1 <- @seed_from_rng RX r; do s2 <- @seed_from_rng RX (snd s1); Ok (fst s1, fst s2)) with
  | Ok (s1, s2) => ok32 (seed_output (Ok s1)) 0x2e7af894bb91c48e2b72be9627dbc960d7800ef7569c8f6f0f3d9873c7337c9a &&
                   ok32 (seed_output (Ok s2)) 0x2bb9a6469fff531083abd8f85c3d7ffa78090f725546a9633a35c0c4582c9b5c
  | _ => false end = true).
(** mega/key_test.go:29-36: the private key, then the public key computed with
    the fast multiplication, which equals [pt_mul] *)
Definition key42 : res Fq := do s <- @seed_from_bytes RX (repeat 0x42 32); do r <- seed_rng s; do x <- @random_scalar RX r; Ok (fst x).
Check (@eq_refl bool true <: match key42 with Ok s => fv s =? 0x078af152fb1edc2488a6d414ac13e76de66904648c585dc5f5032b3c022716cd | _ => false end = true).
Definition pub42 : pt := fast_mul (of_Z q 0x078af152fb1edc2488a6d414ac13e76de66904648c585dc5f5032b3c022716cd) pt_gen.
Lemma pub42_pt_mul : pub42 = pt_mul (of_Z q 0x078af152fb1edc2488a6d414ac13e76de66904648c585dc5f5032b3c022716cd) pt_gen.
Proof. apply fast_mul_eq. Qed.
Check (@eq_refl bool true <: match point_serialize pub42 with
  | Ok b => bytes_eqb b (be_bytes 33 0x027e4c1145be85c1d62c24be6ff81f837a1c63d4051071233569b55fb410da4ebd) | _ => false end = true).
(** ro/ro_test.go:11-50; the point is the public key above: s1 G for the first
    scalar of the same seed *)
Definition ro1 : res (list Fq) :=
  do k <- key42; do pb <- point_serialize pub42;
  let r := new_ro (str "ic-test-domain-sep") in
  let r := fst (ro_add_input r (str "pt1") (1 :: pb) ty_point) in
  let '(r, again) := ro_add_input r (str "pt1") (1 :: pb) ty_point in
  @ro_output_scalars RX (add_uint64 "round" 1 (add_scalar "s1" k (add_bytes "v1" (repeat 42 42) (add_uint64 "i1" 42 r)))) 2.
Definition ro2 : res Fq :=
  do l <- ro1; match l with
  | [_; c1] => @ro_output_scalar RX (add_uint64 "round" 2 (add_scalar "c1" c1 (new_ro (str "ic-test-domain-sep-2"))))
  | _ => Err end.
Definition ro3 : res bytes :=
  do c2 <- ro2; @ro_output_bytes RX (add_uint64 "round" 3 (add_scalar "c2" c2 (new_ro (str "ic-test-domain-sep-3")))) 42.
Check (@eq_refl bool true <: match ro1 with
  | Ok [a; b] => (fv a =? 0xe1cc3546518665d7321cd5b5aa7cbae2ae9d8bad3a2f28b495ac3d3af139b460) && (fv b =? 0xd46b5ef6fafdaf2a1e50f7b979f1fd31e058e9c2ab69115c4f2c15077ae94969)
  | _ => false end = true).
Check (@eq_refl bool true <: match ro2 with Ok s => fv s =? 0xf35e7f0a649f8c8e92084d04d40cd13cb82e9e2ebc3aabb5bd88c04ce2f5ebe9 | _ => false end = true).
Check (@eq_refl bool true <: match ro3 with
  | Ok b => bytes_eqb b (be_bytes 42 0xc569bf3e900df5d5e61fdf3b9d798d3089bf9dfd875e8735cb99aef2e5a865f2eb44fb6f363730a4b2dc) | _ => false end = true).
