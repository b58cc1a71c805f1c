(** Certificates for the periods of the predefined parameter sets of the mrg classes: for each set the
    modulus, the coefficients, the period, its prime factors (with repetition) and, for each prime factor q,
    the inverse of X^(period/q) - 1 modulo the characteristic polynomial. *)
From Coq Require Import ZArith Znumtheory List Bool Lia.
From Verif Require Import Base BaseFacts Cong Pratt Primes PolyAct.
Import ListNotations.
Open Scope Z_scope.

Record period_cert := PeriodCert { pe_m : Z; pe_a : list Z; pe_n : positive; pe_primes : list Z; pe_certs : list pcert }.

Definition pe_shape (e : period_cert) : bool :=
  forallb (fun q => mem q known_primes) (pe_primes e) && (prod (pe_primes e) mod Z.pos (pe_n e) =? 0)
  && forallb (fun q => mem q (flat_map (fun c => map fst (pc_tests c)) (pe_certs e))) (pe_primes e).
Definition pe_algebra (e : period_cert) : bool :=
  returns_ok (pe_m e) (rev (pe_a e)) (pe_n e) && forallb (cert_ok (pe_m e) (rev (pe_a e)) (Z.pos (pe_n e))) (pe_certs e).

Lemma pe_exact e w : pe_shape e = true -> pe_algebra e = true -> (2 <= length (pe_a e))%nat ->
  frec (pe_m e) (rev (pe_a e)) w -> nonzero (pe_m e) w -> forall n, per (pe_m e) w n <-> 0 <= n /\ (Z.pos (pe_n e) | n).
Proof.
  intros HS HA Hk Hw Hn. unfold pe_shape in HS. unfold pe_algebra in HA. rewrite !andb_true_iff in HS. apply andb_prop in HA.
  destruct HS as ((H1 & H2) & H3). destruct HA as (H4 & H5). apply Z.eqb_eq in H2.
  apply (period_exact (pe_m e) (rev (pe_a e))) with (l := pe_primes e) (certs := pe_certs e); try assumption.
  - rewrite rev_length. exact Hk.
  - apply known_primes_all, H1.
  - apply Z.mod_divide; [discriminate | exact H2].
  - intros q Hq _. rewrite forallb_forall in H3. apply mem_in, H3, Hq.
Qed.

Definition pe_mrg2_1 := PeriodCert 2147483647 [1498809829; 1160990996] 4611686014132420608
  [2; 2; 2; 2; 2; 2; 2; 2; 2; 2; 2; 2; 2; 2; 2; 2; 2; 2; 2; 2; 2; 2; 2; 2; 2; 2; 2; 2; 2; 2; 2; 2; 3; 3; 7; 11; 31; 151; 331]
  [PCert 2147483648 [(2, (1073741823%positive, [1073741823; 0])); (3, (715827882%positive, [1642991068; 0])); (7, (306783378%positive, [194338333; 0])); (11, (195225786%positive, [978019103; 0])); (31, (69273666%positive, [1861152493; 0])); (151, (14221746%positive, [871693563; 0])); (331, (6487866%positive, [275348860; 0]))]].
Lemma pe_mrg2_1_shape : pe_shape pe_mrg2_1 = true. Proof. vm_compute. reflexivity. Qed.
Lemma pe_mrg2_1_algebra : pe_algebra pe_mrg2_1 = true. Proof. vm_compute. reflexivity. Qed.

Definition pe_mrg2_2 := PeriodCert 2147483647 [46325; 1084587] 4611686014132420608
  [2; 2; 2; 2; 2; 2; 2; 2; 2; 2; 2; 2; 2; 2; 2; 2; 2; 2; 2; 2; 2; 2; 2; 2; 2; 2; 2; 2; 2; 2; 2; 2; 3; 3; 7; 11; 31; 151; 331]
  [PCert 2147483648 [(2, (1073741823%positive, [1073741823; 0])); (3, (715827882%positive, [1642991068; 0])); (7, (306783378%positive, [1468790198; 0])); (11, (195225786%positive, [1978945544; 0])); (31, (69273666%positive, [1840700269; 0])); (151, (14221746%positive, [1275790083; 0])); (331, (6487866%positive, [1027747267; 0]))]].
Lemma pe_mrg2_2_shape : pe_shape pe_mrg2_2 = true. Proof. vm_compute. reflexivity. Qed.
Lemma pe_mrg2_2_algebra : pe_algebra pe_mrg2_2 = true. Proof. vm_compute. reflexivity. Qed.

Definition pe_mrg3_1 := PeriodCert 2147483647 [2021422057; 1826992351; 1977753457] 9903520300447984150353281022
  [2; 3; 3; 3; 7; 11; 31; 151; 331; 529510939; 2903110321]
  [PCert 4611686016279904257 [(2, (1073741823%positive, [1073741823; 0; 0])); (3, (715827882%positive, [504492578; 0; 0])); (7, (306783378%positive, [678693448; 0; 0])); (11, (195225786%positive, [1978945544; 0; 0])); (31, (69273666%positive, [2078209981; 0; 0])); (151, (14221746%positive, [414102916; 0; 0])); (331, (6487866%positive, [1330656599; 0; 0]))];
    PCert 2147483646 [(529510939, (8709330963%positive, [1001479443; 397241976; 236092519])); (2903110321, (1588532817%positive, [1247172073; 1694278151; 1873752800]))]].
Lemma pe_mrg3_1_shape : pe_shape pe_mrg3_1 = true. Proof. vm_compute. reflexivity. Qed.
Lemma pe_mrg3_1_algebra : pe_algebra pe_mrg3_1 = true. Proof. vm_compute. reflexivity. Qed.

Definition pe_mrg3_2 := PeriodCert 2147483647 [1476728729; 0; 1155643113] 9903520300447984150353281022
  [2; 3; 3; 3; 7; 11; 31; 151; 331; 529510939; 2903110321]
  [PCert 4611686016279904257 [(2, (1073741823%positive, [1073741823; 0; 0])); (3, (715827882%positive, [1642991068; 0; 0])); (7, (306783378%positive, [1953145313; 0; 0])); (11, (195225786%positive, [1272970177; 0; 0])); (31, (69273666%positive, [2099201; 0; 0])); (151, (14221746%positive, [72380479; 0; 0])); (331, (6487866%positive, [1338886561; 0; 0]))];
    PCert 2147483646 [(529510939, (8709330963%positive, [2103445631; 754418155; 188466095])); (2903110321, (1588532817%positive, [214073238; 682335262; 108564297]))]].
Lemma pe_mrg3_2_shape : pe_shape pe_mrg3_2 = true. Proof. vm_compute. reflexivity. Qed.
Lemma pe_mrg3_2_algebra : pe_algebra pe_mrg3_2 = true. Proof. vm_compute. reflexivity. Qed.

Definition pe_mrg3_3 := PeriodCert 2147483647 [65338; 0; 64636] 9903520300447984150353281022
  [2; 3; 3; 3; 7; 11; 31; 151; 331; 529510939; 2903110321]
  [PCert 4611686016279904257 [(2, (1073741823%positive, [1073741823; 0; 0])); (3, (715827882%positive, [1642991068; 0; 0])); (7, (306783378%positive, [678693448; 0; 0])); (11, (195225786%positive, [1272970177; 0; 0])); (31, (69273666%positive, [715827881; 0; 0])); (151, (14221746%positive, [1085975944; 0; 0])); (331, (6487866%positive, [1128356450; 0; 0]))];
    PCert 2147483646 [(529510939, (8709330963%positive, [957225494; 1120172857; 2123993203])); (2903110321, (1588532817%positive, [1626824476; 1548809488; 455099070]))]].
Lemma pe_mrg3_3_shape : pe_shape pe_mrg3_3 = true. Proof. vm_compute. reflexivity. Qed.
Lemma pe_mrg3_3_algebra : pe_algebra pe_mrg3_3 = true. Proof. vm_compute. reflexivity. Qed.

Definition pe_mrg3s_0 := PeriodCert 2147462579 [2025213985; 1112953677; 2038969601] 4951614413152343934173565269
  [1073731289; 4611595530352793821]
  [PCert 4611595530352793821 [(1073731289, (1%positive, [1953418149; 0; 0]))];
    PCert 1073731289 [(4611595530352793821, (1%positive, [668652180; 624001097; 1880939520]))]].
Lemma pe_mrg3s_0_shape : pe_shape pe_mrg3s_0 = true. Proof. vm_compute. reflexivity. Qed.
Lemma pe_mrg3s_0_algebra : pe_algebra pe_mrg3s_0 = true. Proof. vm_compute. reflexivity. Qed.

Definition pe_mrg3s_1 := PeriodCert 2147462579 [1287767370; 1045931779; 58150106] 9903228826304687868347130538
  [2; 1073731289; 4611595530352793821]
  [PCert 4611595530352793821 [(2, (1073731289%positive, [1073731289; 0; 0])); (1073731289, (2%positive, [657722033; 0; 0]))];
    PCert 2147462578 [(4611595530352793821, (1%positive, [945447668; 1308774341; 1005557514]))]].
Lemma pe_mrg3s_1_shape : pe_shape pe_mrg3s_1 = true. Proof. vm_compute. reflexivity. Qed.
Lemma pe_mrg3s_1_algebra : pe_algebra pe_mrg3s_1 = true. Proof. vm_compute. reflexivity. Qed.

Definition pe_mrg4_1 := PeriodCert 2147483647 [2001982722; 1412284257; 1155380217; 1668339922] 21267647892944572736998860269687930880
  [2; 2; 2; 2; 2; 2; 2; 2; 2; 2; 2; 2; 2; 2; 2; 2; 2; 2; 2; 2; 2; 2; 2; 2; 2; 2; 2; 2; 2; 2; 2; 2; 2; 3; 3; 5; 7; 11; 31; 151; 331; 733; 1709; 368140581013]
  [PCert 9903520305059670166633185280 [(2, (1073741823%positive, [1073741823; 0; 0; 0])); (3, (715827882%positive, [1642991068; 0; 0; 0])); (7, (306783378%positive, [1710285452; 0; 0; 0])); (11, (195225786%positive, [1763801231; 0; 0; 0])); (31, (69273666%positive, [65537; 0; 0; 0])); (151, (14221746%positive, [1609094502; 0; 0; 0])); (331, (6487866%positive, [1807822165; 0; 0; 0]))];
    PCert 2147483646 [(5, (1980704061011934033326637056%positive, [2004102534; 1366967034; 1837103632; 1045251894])); (733, (13510941753150982491996160%positive, [1477829504; 483906082; 1367553702; 1876963177])); (1709, (5794921184938367563857920%positive, [1622922818; 2093297628; 36644771; 833833785])); (368140581013, (26901463233986560%positive, [1860600415; 159793627; 1694813917; 1801914806]))]].
Lemma pe_mrg4_1_shape : pe_shape pe_mrg4_1 = true. Proof. vm_compute. reflexivity. Qed.
Lemma pe_mrg4_1_algebra : pe_algebra pe_mrg4_1 = true. Proof. vm_compute. reflexivity. Qed.

Definition pe_mrg5_1 := PeriodCert 2147483647 [107374182; 0; 0; 0; 104480] 45671926060252476630107084286792841360213803006
  [2; 3; 3; 7; 11; 31; 61; 151; 271; 331; 1286531238451883917612880674872731]
  [PCert 21267647902848093042058530436321116161 [(2, (1073741823%positive, [1073741823; 0; 0; 0; 0])); (3, (715827882%positive, [1642991068; 0; 0; 0; 0])); (7, (306783378%positive, [678693448; 0; 0; 0; 0])); (11, (195225786%positive, [874513469; 0; 0; 0; 0])); (31, (69273666%positive, [613585481; 0; 0; 0; 0])); (151, (14221746%positive, [1357829035; 0; 0; 0; 0])); (331, (6487866%positive, [1863478265; 0; 0; 0; 0]))];
    PCert 2147483646 [(61, (348649965620460541673090662890510101%positive, [3989206; 843266580; 1321522685; 186115840; 1498533706])); (271, (78478405545564918974385721167236591%positive, [71984470; 412951551; 1501303117; 1512876046; 1166907656])); (1286531238451883917612880674872731, (16531%positive, [2118602255; 1425026755; 62315227; 171519872; 1571471236]))]].
Lemma pe_mrg5_1_shape : pe_shape pe_mrg5_1 = true. Proof. vm_compute. reflexivity. Qed.
Lemma pe_mrg5_1_algebra : pe_algebra pe_mrg5_1 = true. Proof. vm_compute. reflexivity. Qed.

Definition pe_mrg5s_0 := PeriodCert 2147461007 [1053223373; 1530818118; 1612122482; 133497989; 573245311] 22834759306636447265311355625805060018649660903
  [1073730503; 21266751054232131901454750443841176801]
  [PCert 21266751054232131901454750443841176801 [(1073730503, (1%positive, [221460679; 0; 0; 0; 0]))];
    PCert 1073730503 [(21266751054232131901454750443841176801, (1%positive, [231871304; 1730812396; 1545512481; 455679676; 955581604]))]].
Lemma pe_mrg5s_0_shape : pe_shape pe_mrg5s_0 = true. Proof. vm_compute. reflexivity. Qed.
Lemma pe_mrg5s_0_algebra : pe_algebra pe_mrg5s_0 = true. Proof. vm_compute. reflexivity. Qed.

Definition pe_mrg5s_1 := PeriodCert 2147461007 [2068619238; 2138332912; 671754166; 1442240992; 1526958817] 45669518613272894530622711251610120037299321806
  [2; 1073730503; 21266751054232131901454750443841176801]
  [PCert 21266751054232131901454750443841176801 [(2, (1073730503%positive, [1073730503; 0; 0; 0; 0])); (1073730503, (2%positive, [1263007105; 0; 0; 0; 0]))];
    PCert 2147461006 [(21266751054232131901454750443841176801, (1%positive, [1282589245; 208895705; 510639597; 675195577; 981583003]))]].
Lemma pe_mrg5s_1_shape : pe_shape pe_mrg5s_1 = true. Proof. vm_compute. reflexivity. Qed.
Lemma pe_mrg5s_1_algebra : pe_algebra pe_mrg5s_1 = true. Proof. vm_compute. reflexivity. Qed.

Definition period_certs : list period_cert := [pe_mrg2_1; pe_mrg2_2; pe_mrg3_1; pe_mrg3_2; pe_mrg3_3; pe_mrg3s_0; pe_mrg3s_1; pe_mrg4_1; pe_mrg5_1; pe_mrg5s_0; pe_mrg5s_1].
Lemma period_certs_exact e w : In e period_certs -> frec (pe_m e) (rev (pe_a e)) w -> nonzero (pe_m e) w ->
  forall n, per (pe_m e) w n <-> 0 <= n /\ (Z.pos (pe_n e) | n).
Proof.
  intros H. unfold period_certs in H. cbn [In] in H.
  destruct H as [<-|H]; [apply pe_exact; [exact pe_mrg2_1_shape | exact pe_mrg2_1_algebra | cbn; lia]|].
  destruct H as [<-|H]; [apply pe_exact; [exact pe_mrg2_2_shape | exact pe_mrg2_2_algebra | cbn; lia]|].
  destruct H as [<-|H]; [apply pe_exact; [exact pe_mrg3_1_shape | exact pe_mrg3_1_algebra | cbn; lia]|].
  destruct H as [<-|H]; [apply pe_exact; [exact pe_mrg3_2_shape | exact pe_mrg3_2_algebra | cbn; lia]|].
  destruct H as [<-|H]; [apply pe_exact; [exact pe_mrg3_3_shape | exact pe_mrg3_3_algebra | cbn; lia]|].
  destruct H as [<-|H]; [apply pe_exact; [exact pe_mrg3s_0_shape | exact pe_mrg3s_0_algebra | cbn; lia]|].
  destruct H as [<-|H]; [apply pe_exact; [exact pe_mrg3s_1_shape | exact pe_mrg3s_1_algebra | cbn; lia]|].
  destruct H as [<-|H]; [apply pe_exact; [exact pe_mrg4_1_shape | exact pe_mrg4_1_algebra | cbn; lia]|].
  destruct H as [<-|H]; [apply pe_exact; [exact pe_mrg5_1_shape | exact pe_mrg5_1_algebra | cbn; lia]|].
  destruct H as [<-|H]; [apply pe_exact; [exact pe_mrg5s_0_shape | exact pe_mrg5s_0_algebra | cbn; lia]|].
  destruct H as [<-|H]; [apply pe_exact; [exact pe_mrg5s_1_shape | exact pe_mrg5s_1_algebra | cbn; lia]|].
  contradiction.
Qed.

(** mrg4 LEcuyer2: X^(m^2-1) = 1 *)
Lemma mrg4_2_returns : returns_ok 2147483647 (rev [64886; 0; 0; 64322]) (2147483647 ^ 2 - 1) = true.
Proof. vm_compute. reflexivity. Qed.
