(** Certificates of the periods of the lagged Fibonacci sequences. *)
From Coq Require Import ZArith NArith Znumtheory List Bool Arith Lia.
From Verif Require Import Base Primes SparseAct LucasLehmer PlusLift.
Import ListNotations.
Open Scope Z_scope.

(** ** r250 *)
Definition sc_r250_steps : list sstep :=
  [SSq 0 1; SMul 0 1; SSq 0 1; SMul 0 3; SSq 0 3; SMul 0 1; SSq 0 1; SMul 0 7; SSq 0 7; SMul 0 1; SSq 0 1; SMul 0 11; SSq 0 15; SMul 0 1; SSq 0 1; SMul 0 15; SSq 0 31; SMul 0 1; SSq 0 62; SMul 0 1; SSq 0 1; SMul 0 21; SSq 22 125; SMul 0 23; SSq 2 25; SMul 0 3; SSq 2 1; SMul 0 3; SSq 0 1; SMul 0 5; SSq 0 3; SMul 0 1; SSq 0 6; SMul 0 1; SSq 0 12; SMul 0 1; SSq 0 1; SMul 0 13; SSq 38 50; SMul 0 39; SSq 0 100; SMul 0 1; SSq 0 50; SMul 0 43; SSq 0 1; SMul 0 1; SSq 0 1; SMul 0 3; SSq 0 3; SMul 0 1; SSq 0 6; SMul 0 1; SSq 0 12; SMul 0 1; SSq 0 1; SMul 0 11; SSq 0 5; SMul 0 1; SSq 14 25; SMul 0 15; SSq 0 1; SMul 0 1; SSq 0 2; SMul 0 1; SSq 0 1; SMul 0 5; SSq 22 10; SMul 0 23; SSq 0 20; SMul 0 1; SSq 0 10; SMul 0 27; SSq 0 1; SMul 0 1; SSq 0 2; SMul 0 1; SSq 0 1; SMul 0 5; SSq 0 1; SMul 0 1; SSq 8 5; SMul 0 9; SSq 10 2; SMul 0 11; SSq 0 4; SMul 0 1; SSq 0 2; SMul 0 15; SSq 22 1; SMul 0 23; SSq 0 1; SMul 0 25; SSq 0 5; SMul 0 27; SSq 0 3; SMul 0 29; SSq 30 3; SMul 0 31; SSq 0 2; SMul 0 33; SSq 0 1; SMul 0 35; SSq 0 3; SMul 0 37; SSq 46 1; SMul 0 47; SSq 0 1; SMul 0 49; SSq 0 1; SMul 0 51; SSq 0 1; SMul 0 53; SSq 0 1; SMul 0 55; SSq 0 2; SMul 0 57; SSq 0 3; SMul 0 59; SSq 0 1; SMul 0 61; SSq 62 1; SMul 0 63; SSq 0 1; SMul 0 65; SSq 0 1; SMul 0 67; SSq 0 1; SMul 0 69; SSq 0 2; SMul 0 71; SSq 0 1; SMul 0 73; SSq 94 6; SMul 0 95; SSq 0 2; SMul 0 97; SSq 0 1; SMul 0 99; SSq 0 7; SMul 0 101; SSq 0 1; SMul 0 103; SSq 0 2; SMul 0 105; SSq 0 2; SMul 0 107; SSq 0 1; SMul 0 109; SSq 0 2; SMul 0 111; SSq 0 3; SMul 0 113; SSq 0 5; SMul 0 115; SSq 0 1; SMul 0 117; SSq 0 4; SMul 0 119; SSq 0 1; SMul 0 121; SSq 0 2; SMul 0 123; SSq 0 1; SMul 0 125; SSq 0 2; SMul 0 127; SSq 0 1; SMul 0 129; SSq 0 2; SMul 0 131; SSq 0 1; SMul 0 133; SSq 0 1; SMul 0 135; SSq 0 1; SMul 0 137; SSq 0 1; SMul 0 139; SSq 0 3; SMul 0 141; SSq 0 3; SMul 0 143; SSq 0 2; SMul 0 145; SSq 0 4; SMul 0 147; SSq 148 1; SMul 0 149; SSq 0 1; SMul 0 151; SSq 0 1; SMul 0 153; SSq 0 1; SMul 0 155; SSq 0 2; SMul 0 157; SSq 0 2; SMul 0 159; SSq 0 3; SMul 0 161; SSq 0 1; SMul 0 163; SSq 0 1; SMul 0 165; SSq 0 9; SMul 0 167; SSq 0 3; SMul 0 169; SSq 0 2; SMul 0 171; SSq 0 1; SMul 0 173; SSq 0 2; SMul 0 175; SSq 0 2; SMul 0 177; SSq 0 1; SMul 0 179; SSq 0 4; SMul 0 181; SSq 194 3; SMul 0 195; SSq 0 2; SMul 0 197; SSq 0 2; SMul 0 199; SSq 0 1; SMul 0 201; SSq 0 3; SMul 0 203; SSq 0 1; SMul 0 205; SSq 0 2; SMul 0 207; SSq 0 1; SMul 0 209; SSq 0 4; SMul 0 211; SSq 0 1; SMul 0 213; SSq 0 1; SMul 0 215; SSq 0 1; SMul 0 217; SSq 0 1; SMul 0 219; SSq 0 1; SMul 0 221; SSq 0 2; SMul 0 223; SSq 0 2; SMul 0 225; SSq 0 1; SMul 0 227; SSq 0 5; SMul 0 229; SSq 0 1; SMul 0 231; SSq 0 1; SMul 0 233; SSq 0 1; SMul 0 235; SSq 0 1; SMul 0 237; SSq 0 2; SMul 0 239; SSq 0 2; SMul 0 241; SSq 0 1; SMul 0 243; SSq 0 4; SMul 0 245; SSq 0 2; SMul 0 247; SSq 0 1; SMul 0 249; SSq 0 3; SMul 0 251; SSq 0 4; SMul 0 253; SSq 0 1; SMul 0 255; SSq 0 1; SMul 0 257; SSq 0 2; SMul 0 259; SSq 0 4; SMul 0 261; SSq 0 3; SMul 0 263; SSq 0 3; SMul 0 265; SSq 0 1; SMul 0 267; SSq 268 1; SMul 0 269; SSq 0 2; SMul 0 271; SSq 0 1; SMul 0 273; SSq 0 2; SMul 0 275; SSq 0 1; SMul 0 277; SSq 0 6; SMul 0 279; SSq 0 1; SMul 0 281; SSq 0 1; SMul 0 283; SSq 0 2; SMul 0 285; SSq 0 2; SMul 0 287; SSq 0 1; SMul 0 289; SSq 0 3; SMul 0 291; SSq 0 1; SMul 0 293; SSq 0 2; SMul 0 295; SSq 0 1; SMul 0 297; SSq 236 1; SMul 0 237].
Definition sc_r250 := SpCert 250 [0; 147]%nat 1809251394333065553493296640760748560207343510400633813116524750123642650623
  [3; 31; 11; 601; 1801; 251; 4051; 269089806001; 4710883168879506001; 229668251; 5519485418336288303251]
  sc_r250_steps 0
  [(3, (238%nat, 0x1105c52c3961ef9f98c021993ec819159e958c63d46b5da15aa6ab0eff1b42d%N));
   (31, (244%nat, 0x394b4cd539c79bf332a6e0e0ab76bd9cf40a5d73eb9de9a2afb570ae3eba626%N));
   (11, (246%nat, 0x2ed509b3d4fff989bd661cd896c5ec5f12491798f68deac70e58b51cb9dd438%N));
   (601, (230%nat, 0x1463bc648009dc814b71a5926b77ad532454e139d85d50f1f63bfda05f95a05%N));
   (1801, (222%nat, 0x12fee35f0e5f4292287b3c7672e1e0084b179a61617822a4bab0c96448ac14b%N));
   (251, (206%nat, 0x34090159b4970f715c91a036179a7e3bdaee765eb3d82581fb7c8002c1c7e1f%N));
   (4051, (194%nat, 0x1e5a119e92691babc72c9ce136b3e00fa398ca3e14a40c53e0f73cffd005319%N));
   (269089806001, (140%nat, 0x1160886ffbd694390b657097f39b42c325e8796127ea8dd24cbcf5420a65de1%N));
   (4710883168879506001, (106%nat, 0x369cefda75d5dd1705fb9dcbc61bd20fad96f83674ba20e3bae7e21ab470b2e%N));
   (229668251, (32%nat, 0xf0eaf80095fbe00243cd7a594cbf111c37a90efc9635c8baa9baecc2ef776f%N));
   (5519485418336288303251, (2%nat, 0x60ed56031a7a193db4de71bd121f1f9875245b1fd29d3c91de65cb7197f20e%N))].
Lemma sc_r250_shape : sc_shape sc_r250 = true. Proof. vm_compute. reflexivity. Qed.
Lemma sc_r250_algebra : sc_algebra sc_r250 = true. Proof. vm_cast_no_check (eq_refl true). Qed.

(** ** 2^521 - 1 and 2^607 - 1 are prime. *)
Definition ll_521 : list positive :=
  [0xe; 0xc2; 0x9302; 0x546b4c02; 0x1bd696d9f03d3002; 0x306f7b285eead7d8cc88407a9f4c002; 0x929febb2bda322bf2b38c93432476ef7e6a06ce335de155599f9d37d30002; 0x53faccbe8157493cfbe60a7f5e87c9d79240a3e132d5cb70263b89dc60bb02e99911b0527acfe8c82b3082ea19f850ea776d9b1220f460d65ddf4c0002; 0x103f16dd49eee538fc14768fb7a28b4690b0e2e2701d6abd2608ff4c08cf314a0e66b43594fb2429f10a0d6b8378fae5bd555ac347acd93cac26529f3aed3debafd; 0x211fcdd4b83fe9fec83d790c742937f3952596c121b36b19f5846f1a053609d5ec47bf8fde09ee8c1f35b701ce159a5dd747a80d9b9a405ef1d22add08fb52c640; 0x1e6f3f5dcece7fd8f77e1a530f10b5f24bfb605ada9a3cfe52156137d0553b5b1b28e2a0f7d4d02647f94562215d373ce6a7c8cfcec814f0c5889e1f9c79d543d4d; 0x1ee091c17056ffaf3444a5b5242a7717111f83f98cd55fc2c9a11e8372fb8b20d806c50774e6003a68947c156850c1e9fcd38fd2b3165d0057369450287e3942fb2; 0x1c69034c390fee7cd89a7bb1008f006025568df96dc70aa916550dcf5775cb1a62fd3af64f7f7ad810422de3e8eb0556e409b48f7936aa9f9d21a22e62313b7357e; 0x1bccc6a1484f818523aafb6739fa5566526ee0ef9cf99a22076f5831d3172e74ca4747a11d5a24ea5cd4918620021c13c895a95ac19fcae9a5644a299a9805c3034; 0xe3db8c3af39bab0ce9ad269a8da76e5deea59b883a179501ee7e079802d6e04719e5c7090ad67da9e1aaef078e43562eef784347e2b3a6bb37fd0ddbb54c02a9a5; 0x18e423d0e3f1c73a8b514826ac21fa708f46f591c94eeb3d3d993c7beff07a0fe9cb771a33e25f785a282116032fe060977a92ffbd5511bb522aceb532e8aa20eec; 0x3a32237477f2a94a561deab226119f5cac97db730d3e7663a01e369dcad60a9e76fbcdbcdc87e4c08c78acd63ccd449130bc251e68c317dc748c60bdb5068dbd8c; 0xb1e32a10fa8b9b8eec55c9b2da33af42b08e053e445e7f612bcb612dfc725c0093ee006e00120af12d4e7c294670229518679ee8823ac5fb5d202898858d694d6c; 0x10fb01f11e9964acd20f9e5d4bad2c841968ce1f6265c301a26490958b4f94d12e1612504c2521c96d57b5c015a9fec469f40f8a99625b13bc848050ad15acd2dc; 0x16486218b3c1788dfeda19932788cf247b83cf53402325de03c7bdebe9453fe9ee618aa14c0bdbfab03f78fc0a08d708abc87d2278d1ddbb2de4f1d64efe742581; 0xd459473392bf3f3a2edb1c6748c7544d309683c35e1adc7f39fa8bfba5f196b0a59666d95b06dde027150d18ebf8bbb34f98f451672da526db7039a237129b359d; 0x1c624e7a9c209ac3a92ac1f7978a5f35b0da882d9ff7eb092784d2f1c1c74f4670f71932d64c7ea4f72bf367fdb9070ab625374a77d270af7a4a0f9c6a61ecfb391; 0x181b6605331e82f7a92ff4d95d557092619e076f5a22e0c97c7185d898f47a9e829d583a583652b5d02aa5f8b7971f211db2aaed0372acec750b19afcac62971a1; 0x800c9333518414e2533517996d348c88316ff98ecbec3572f4ca30d92345ec2bae745a14a4b88dc64f4da525c3066933da715060b384441fb7b1acbff16626d93d; 0x771cd7cac05e9000c13bed66f6337b8844e9a510f356aa25c3d925d3d2e9a7c8bccca5d41f1e113726885f5f25d978363933216e579ebe2751e3d020ab54fafcb1; 0x2101b4f760d75894cd765c9543aeb6f3ae8e8ade56ef8e60265e102b2bd38e53f556208c30234ac3bc726813a990954bad21bfbf929e16db1d024d90ee5bf53589; 0x1292605eba3410313d05bef914006da2fcb7bfbd813611a1030a41b742353bceec160036d61bc2599d822d2f1f9e20bd6226d11a161d8f60fd1ddd8393ad3f63d62; 0x1ac47031a485176acb21e48ac208c6ce9da1e8a67fbfeea011493d08e46cc5c51fcc3335d1227e684f7fd7a16fbf782d8425aedcfa4b54392df605666ea7d2cafc7; 0x1675474cc670da80b3389bab13f52093aa201aedc02d06af2dc3cb7c0c1f6db315cc8b42011879792aa579a9a3c66dbb0abeeffbb4940ea62b7ee4e2a49ab8dd2d2; 0x7dc9c49e77008e33a8ff068f54585a1bf2b27c89579867f8185de41027909c01a6dc762b5362cf648e66c23a7f2217936013181f409790285238a4d3e31a1aaaf3; 0x78054edb9b00b0498f140bd6ee0ff2293b1c60fed7bfb55cdab24b03772b8f1c0c5d2208599bc940ed4a14d83d7bf418c40f9c94b93ff8d5f4095c6c2ca44051b; 0x1ce9668afcfafe463e8095727f298a54c53373b5439b55d98d3d1966281e95f44d6fc7d2a0cf927c75b1cc80e7beee4148a3019ec34533c23fb99ef3f952b5936a; 0x34483ebb99e8bb1da63c3601ac56cb955fc20c1a0011a4da2484242ee0638513e1f9d964293aafb415a7b3fb140d690fa38bf4c32bb5ff9a529d81a6bbb0441136; 0x1109b6ff94d0c74fdf76ce49192b0db527a37c2334b20a4ce2ade9b7a83fa2cecf150c081170a3280a3337b1fec241d98106f49a389f7975c56f16878d988444a1a; 0x22bbbc21c6c179a12a14ffa8033b1428f74c620d5c019e966f37fc5e91922abcef2e089608043ec88f75f2c6ad8c5870e8d41dca147a297b93684de7a0c08d7916; 0xdb5a0ccc8e0a41835435503e594ff467f63558c63862232410fec20536ce625c693636d450d71d09a9d5addff89700c1ef0d5d80a919f7004d2d6ddaed235592b; 0x155a54068905fa4f7cc80dbbf68310684718b0b2f12a94f8b8bc76dbe49c22713099d4cc12ac073a1e2c1f5d35a5a2bd4b487286c66b076a4046fc04af9e00151b1; 0x6d4d3a5bfbff92d2a74ef64097dc4ced8db11a73935737e70d32e96438f2c98c9471a393c5caa6ceaaa06666d90d887cc8074483f8b7b59227ca67a06c885663bc; 0x1b449b37db9600920d3a8011fc7f348d4af2aa7212ee491bf3f76ba21a3a8a27d3744f47a4c36e01cb067c018a331dac1825943e57d8b06ed063b54f436f0188491; 0x15618fafea9936a90b196c925f33a24dbb02e26c24709f904a29fd8b09e4b5e7ee4aac297b6d96d8da582e26fef9c4ec47566ae409bf099542e09cc535b8d4d907a; 0x1b5d34f00721c3662e1c042192be6e5c8bde2354db978a4ddf930838d0ae88802d4bab3d8c7b78a9aeec24e90d74bade74f4a2db302cbc64c04b75017361841dc2; 0x1e04048db38c60d1597a667d2ff15d897a4bd787d173b577d0395e8227156e45d2c5325483775b5fb7a736cb1570a648fd61408f78c616b0c1bc5914ce9093a662f; 0x113dfdbe4c848ce62a8b9f229fce1e2250dd37fdac782d339da92794ed92bf104267c5ced4799e32f932a82b507ad290cc7a57464ba7e24f7fa0ffb4959940a1a6c; 0x506e44627234da1a75f1e14b1327f54eb1354c5f2eb85307b71d97207b39a3fd0d587c26aadca868e2503c37b0c8b6caccef555ce2b6a8c9098d58e958beb1ed8e; 0x1bc299641e543330a29f1de85b650e81c7c6b89ea2201d7205290601432f251419bef46a078c9ad6422b8217dd59aee0a677bb72a6424377a65fc8b8debd20b8d10; 0x1fcb87a192cbc71fe6afcff2464572c20957ed4df3d13fc94d47dd1478598156a8ad6caa884ec1a0626ff02d79bb83097815540cc69600c6379e1e7830b35f9f794; 0xc5949f69648b9d2c53aac5949e868c02cf2eadbc568df2f3c314a2561d1893dec7bcc8ad60a6ed7f3ed4d0d5ec7cee6ff49d5b8b6800529ff24bb8a9f0f8e4a511; 0x4463fe35f9cdbebfed08310876f9dad56cc567a902329651918e9658600d545c5ca64d72ff6bcf806e22af3676f7ff28b08fe03eb433175dde71420cf7b6e8bba3; 0xbf33243355b758f57b5b71aa30f7fbfb0598fe89b0f54bd721e192ddf7c498fdef3e966997fa55461139a85041e7ba58f8ec4721c33591576ab05feec771da82d9; 0x8a4ced7aab9d3f468881b9c1ac91eb5fab74a8a4e6f98c4583edf4598664ed362f0982506fdef180580cb7668821257963983c857762222895efa0465170da01c4; 0x136cef10ea8ed091b82b3e85b3dc93ef0c7f51a6736d1b07a6712100ec7588132955668a4efedda7ef1eafe4c881862a20e6489b28d3477e84db0f1d5639baba534; 0x105afbe5806fbe8564c406340680d386bb22e1d29d9fe25257330ae9467baf54ca71f99f98027ee58b470a0613abfd5cf658f2ae87f55e7dfd3330a06582bb26ece; 0xceeef81aa71aa94ce63eee01c6df6e28cef2ff50acd6d1ed780cba6d96314b80bafef6ecd6338d4778c9e34e03324303b53ccc89030a61462ba1b92ff96766e42; 0x49e020e24246cd16fe9794895a53c221a367176814142193887a90b26a96cbd4e1652f07602c6649ca3e55b26fdda3a707ea0014f231853403734128878c4e632e; 0xe4420655f128d8d485a43af33608462c22469a2bb1bcb5ccaa3c5f48113866b2b38c6c1c33f6de4f29b34ad3d4e1f280d88391ef22910444bb428e27404fd7ad61; 0x14312f7be271b4bb1cff3abd8ef636be1ad813fe7e4d3d29038b7a43ae08d527d0c52281ed1b373ad7677eaa28aad4e416adc58af33a2e7a05d1ac06594952ee5a7; 0xdb329c65ba85cd4768e0f8da349913e7cecd6b25e5663159a844588d689fa9420540e164ea9325ca2507031461a888d0640c3d73ba749ce36b6d555c7dc6a7a092; 0x1531a626517564f112e0a85ccbe4cd16a53ac6f4f9c79905ac7bcd672b6526b24b2aaf4ea764a66aba5d5f08ea7681145712f18a805a0746ecbbe464ba219def8e5; 0x135e57644503e9409c70e11e44cf1a88dfeafc29f5edba24a9ec48c49b749bc2bddd4f13421ee8d9299c33238dd6dc6afc351b6ee33a9ce28c9f2af1b583d829411; 0x58ee2082f35a95abe6a26f09cd551434ad546bbc1e3b56c8305b43ca85a46e9a18b9c146da34542adc0119d4de5772f2fe33882b1b3fdf62eaf70a77aa86efe882; 0xe91dcff6545644c91b527080a713d1721977a32d2fdcff1b22e6ddc82532fb245b3746967d048d7f755516ba7170e284670906c807fe3450e3aa038ca2023f6fc6; 0x17b109706b67555f8e91239e30456ae311614e4b42814c33235c6ea5a61ea2f68913c4be15bf1e01c2ef758df7c861a62f7cdc34bb4cb39cc51b8c388af0021ecc1; 0x1618f9b6a5c1dfd1a0641068cd10d5d3361c7b62476518802914216a75d3c94dcddb8b7756d05cdf6d6537d66642b57865825cd46f8dc8c2a8f1ca8aac6e0a85497; 0x165993092680ee629594bb6238560fa11beed37750c66661c58df4c65d382aa265e6e75ed2337d2b376180eff1af071d530d56c2fd7ee89a0fef2cc2ffc68f80495; 0x142f6a8d5a951dfbffa60497c452e55fef1c5de2f61f0d35fd9b15c84ab34f46d51ce55cbb27b69158255069b9ba7c0f5197613f2b94596ed7375103d30d5ba9c94; 0x1c0dbb994a1d3bd2654f004f2afc95adbe08cfcd2bd9b7a3416033b17d109b3fb9d147a740fa9fe7baa9a52cc8f42a8592187aa94dd5d36a04451686797ed3b6896; 0xf8eac7403dff63f214b13cbdccdf4bcca395c3ca970613e2df8864683b107645a3d3b042a9ad38e0b40ac213b757f5bf9bdfd10b2240bf3f51ac04b3eea3c619da; 0x11b7817cac7a78ff87a6494b594fcb3c04c0ff8e0cdd57db3e2deecb91ee5ea1c18a24cfac07e180c27261383d181b8e876987fd03c05247a31911218ad143c4764; 0x3697675e4f07d35c2bc11b6e0b4cb434795a4916c9fcd0e41403ecbe0317a8d9c85c3875d5646c2a72f47b528bfc6fcc0252231bedad7401d5cb3861219d695927; 0xd68097accc59c8bc3c445c630e4a6fac40690514bb3526f3f3aca837637732c2ec661b61945efbb02a1a8c971f6e407cf93306c2634683d46fd3dc3409262fae90; 0x1fc786d433eadd86fe2c71478633fac30ce6404cee157f947c498991f7df29f389855071f4768e1defe490165fb73f0e7158495be6297c859c1a9dce664944b68fb; 0x18080330aa6c4003064bf18e3b55e158d08d48d639d5820d1b74630a7796978041f1502cded0ce250710a6b3807bceb500e2417f5a2a7287fb45fccfcb84693a993; 0x183b3e19072e6e58197ad0152d5529d498598afdb08c7718f25e7d1c2b269e503265ff8545f977e73aaadbd7e9cd76ca520e85cea2a8f2f020f3740bbfcd3e88932; 0x1f4ab7e9f85f060be0a87ec774c2535282f021d72046123968b7e1f9b5184196d68cf6dfb666712b13a7f02638ab18fafa2416c27363f488b77b8711f6ea33f2221; 0x5ba4cd4dcf6fc2bd9a58669f4b60d5463644b1bde00a8cef566b252d13cf70846eb72dc0e9fd0b70c239337976ab11580a5acef626887cc086d79ff934695ceaf4; 0x1cd335086c02c0868c73b0d145470edb9d1b49e241297d1c4f592153ce7a3b35e1b5a93a260a7879c1d8397490f16af4c4f396a24197c1fa131d9f930e3e07c4ba6; 0x8d32e429244c68f29d3730e50b6ef6e8ff21706e5eb7e7771d0315b626c162c701b0bec84340cc91c8359a65c7688ca7cb574246b1f9c7afa5fb99f448191a5651; 0x17fbdb7994ce169f6220cd52dec0e8626e8ee4414167a67e9cc1fc4feadaa035e43d01607dfcd93762f8e6941aac2460f718f01cd0ece800539037df940f99a01a2; 0x147f1e19b3f44fff41fa863191ebefa66de4b34fcaa7b8d986e16ef5e87fb9be47950d4dabb12e34502e7c0866d7ccb659c22c06951e609cead28425fe6fcf1e413; 0x130959f9e406a59c5abb993734c1bbceaddb42bbcacca3a2d6712c078741c15f1eb85563db03b17b09095eb7bcd15c42dd47c200979bfa5642d5a3e91632e2f6055; 0x177bb11ff6db4f95f208efc30bc5ccbc7e0bf67343bdaa93092eb57bc3459ecbca246144de0bb8f76de5a89e0f0b3f44767683b134edde705dd8c4491d686fb4518; 0x27de68b36d503d0a036e10c808716216b865951e60299d639c141cc685572e5e160fbca614a19389151720cd8a808f7e69c5021a08b8b0f6c5d8a9f6f6173d205; 0x1a28a62df4e543fcd00939b6427ee0261782cbf3657f66c5680faf571f16b222f81c507f9a08672e56ea05011f1370f3b5e9b9b34f1f5ac4ef829c5fc2566665a1e; 0xe56a6696d0f798f58c9daf69249e2a13735765a005be8e38c728674c50130b3beab6c8ab19fa41b6fd26c14042205b1d14a5b53f39e67e95d84d1b7e41c73ff3ad; 0x5b81ebb1898e9131c105806f7d198170a5aaa3c0a59591bec7ab74896e438c38622f12f6e430590efab05eb37705e885ddba3962b62fad4d7841166c289074b961; 0x1203f15ec2ddb7d4c65ca1d6bf65ba2869e943f679c1ba3f6894f6cd02a37f141792d063742b37fa9b92d987a88cae7951aae5b4877ebf6f032c942c23e17f00f8d; 0x12bcaab7bc24cb221321490dec94487c26b4b60fdb03f375303376fbb2fb7a4bd0f3cb1a86478c4728d4d9b048b30b0d677b1067f4dd2c585456a54fa238b95e4cf; 0xa13112947ae94edbba451e8ba442292f8ceb010a8eb720fcc01801672e8a777e051e20189b371441033c2b622dee3ab0fadf5c812d326615400d20f95b78d555fe; 0x1bfae29bc5dd99c3f9c96e3a0f1bba08e630804b382d0783c27b8f32403b44bbca3924cc1df4e25132a07e2f05ed0f8d01012a7809122f7a5b47e955d4c529525e8; 0x3fa08aecf27f120ac748e0ffdbae30f937bc92cc5e0305284da79eef02f9832f491af82b0438261c71c79d0c9f23b05f5891cfcabc65cac5ba88175cb0c7b51b47; 0xca54fa174a2b5cdc4f04710f973eab38f1a30a6c9b7c7f5401fd4a5fc0fb972e6a75b5a69ce287478169975819686e1ecab6f5fc517fc87003df375135923c45b7; 0x1f464981f9f9c5c2cd8f7f88ef032ebeb49539dcda302add6b20bccf9cda3d22be01f566137a4639a994b6027a656be7449c176079d42eee88688e64a9712b9a25; 0x11cb6143a9b099462a4d88ec497329a10b48d8a6654a2d2f2047ed5dba05065f947f845d4af31fccac8fb7b906a74eb9ce2cfd04816e477623eae40f115a2673c22; 0x12181e4798ff85f85dd6d8fe27ee0cd329ba8269310c81af8b22c8c9b4c5f48745afd09c8ad3177e48526c51cffb0e6f0efd7cf81c5241abd275a252a9e1a87df30; 0x6f112cfcc4d545886aeb27350d8c18a6c2d11c9f61a2c82ee7606825390414b88b144d294fe1449421b304042ba331720008b3f7f05967fc83201bae44ef9184cd; 0x5fc1dbb9b95d6a8fa739f13462107831dfaf2e287a07eefbd05bd85a554445e1e1e0ca8db6ce56cb579d89180ccbb634092ea96bd9b4ba954963c4f8a3aaa237bb; 0x10e4a41702333d891d8f7a127c105cda347daa13ea2b1a7de1914ca9b80b9fdeb9bed7b0473c829dc5a97c91f480483478648178a39411dd63ce17d8225e7c18f81; 0x17f1c5c00116d84ec27bf7588c2b6df58c0954aeadacaf6bafb012dd84090a836f53dff643d5a309b7421e4630b6b116e9f9d5052995b1780cccd749f97dcee1d34; 0x20d48b0e79829b82835369e338f19ae833bdfccd41a75cb7c9a58e4b47552168161c7c3f3d818e5f2a4358721f9836601dcd39ef90591b92c94c1001b5e60b955d; 0x1f0ff9b51a5eb50ffa1b5f901ff028599a23b06534d3578d049086b150442f590891ec23dbb13f38c154031f977181310f50bfd7f40a00f82f06888df6f2c008371; 0xa670b8c0c67f6dbcd301c8100f5048e08cd560c89b4491f102d92a1011e8ae3bef8dc807ad8a381763eb17cc737864e54da372541ccb833f68ddb75be5f6c1715e; 0x1fc6878ea75a210b306f8a22cf6a4e585924456896ebd0c33decf7bc47c0fd2e10dcf731dec70b3e8cc19c39f9d86fd3526ab0557f5e52d0e0770f5c0b01fabbba7; 0xe43e2909252f32ac5c9d020828a7667f477efa2e35bae29d1ab5c840a4025731686ea075f5365dad64200909291c5ed5cc99278c990fc216d52d6537ff2176f4b7; 0x40a34640cae635729dfd2a2b787e7cfcaab4ca6fa794d8716e67b665b7315472c2b801694596fdc670199cbcb3470fc99c82da181eaaebb34c19a5563d1b8bb7ec; 0xcfd4587bc07eb9b9d88e1526174130634c870f07277cd4741a866e4572c277177ddfb4b9c2f6284c850ebccf5d1aae2e75df274ae659b0f44ae44c92bc8e0227f2; 0x17128eccac898e2bcd37837c225f2a81ee4f585ddafa33f672bfef391a7e099c0861f9d4c58435dd917c0756082b861a3a7b1dfc1a42301dc04d3b7af6c12dd1f21; 0x8def9c1d79fc545905b39ca0587f8c28e26c757ad39d5255371019451647d2f9919151cf79488641f1fd648449b154fba83d3db17a846d77147b90c474c75684f5; 0x1d4b91ad47c865c835ee6d4dacb65e42cdc013f2faf575c633c2e50409e67904f8a3c140c3dc8845cb05d9f4a7c6794e50eccb8e671085ab7d0482f35b2e829e868; 0x43b77f6e946e6221d2cb98658506554665024b39f7fb62ef952a5ba28e795903afe82f75ecfb6ca3e7ee960b0a74a3d574e65d7c736bda41e4be60710a6ca4841a; 0x1b86208fd6b037ae6972a931c15202112df09d879c81b711af880160794f49c8f9031019336cbaf720abf88a7458c75c385a15e4dd63f322eb5ebb8102366dc6ae3; 0x463a2c35ad5830a38ddc956312b4e4ef7810d514e4784b7b256d00d8ec77e07b1d5b8885fbb0cdb74ac5c560c84075945e61a80a4d664e08a36bfb7ebf45ab9f95; 0x1d1253376eda5912a5320da3258f4e0ee61c18cb3b6dfdf80370b84e92d99329dc06c698f8b58f465a011e676ec8480be6f3f77075bacf17e5315b623f44765005b; 0x1817ad2d64df76f7ad0e5e361d42a5571c1d23011a2ee006e8a21fbb06a4dea617b76c69a4ab0e456cb5eec97f11a250705bac50a01571b678c1bc9de2346c8fb94; 0x104d2371bf9ff5550b6a2c2c75f223c736cb8a0179a4f4639372b4c964334bf20cfc7ccc35947c704dab6c5367651752d208f037f03863691314024ad522c3f47de; 0x1e1b3dc8dcdf53e804657a84bd4de2260fc7afe8b26a85cda45ad5e43d7dc4aa1edec68b4bfb956122eec8ac0b2104ff9795ff8266b49d2443be345ec34eaf2d69b; 0x7077ef2da8217f16ffbe46d23b300bca51495f48a1df4f7faaf386035fb5ef63594f9f2f3c1669601a11576cf82f600b884602250c70ba76856808021191c59b66; 0x18d3221fd8f6a6f4d74abcbd9f385e355bbc616f58d6a543aaeca2636078ac57cf2e7b0ab4a7df0a917bd53c6a1b02456ec9aa6791dcc386e40ca046c7877203140; 0xb3405dd53afd7d6488dec132f0df8dbf38e883e7f8a042d9841605b7cf7268c3f5be7e595de9812cca1cfc14c61d100ec1a31b7fae28a7d5ff8ed44f798b34d831; 0xcd9ff2469512ed6ae496eb13314a3542bf5e3d6221d8959d9ef4ae3a579da3e1df7b73410a75593e8e60168a6f0e67f7bc7af664cf815f42e55d2b162708fd278b; 0x985afc844e4f7b6ba5448b2d02f9d2f59aa7ddc9dfeb357e63b5624eaf487e5688e470c9951817948f4e19c69be41eafbca4abc0bb417ecfd90395d16dbcb8e75c; 0x15ea2865d26e6078d8a9c886d0c060cd68035e40ba1505deb535e0a286e13a02ed4bcd57cc30e06f0584e5f1f53a3ff31adb257e25de1c88da50936a2a117890cdc; 0x1516fb90cd3640cbb320ad0eaddfe553aae4b2ec3e8126ee871af16c47c254c0644dbd7fd003c8f2c65e441af6b8e9550c02a166aac7425db418451d0f8dc59ca21; 0x18456f6379b182365ae62a7f3f9b25017a94de33b3f8b245036b51ecb83223c3018991bc67bd3cf582e00cbe126c77cfca3c1d727ba0e0527fa0853b04aa04ca04c; 0xa75b289fc15296d47b75caf514b46bc640e5ec3f6a501a2ed06368df333d68ade2a9e590f849a9fad8e34f710c6826d2a67a3dd7fd18f742753dae6c9d6d2597e2; 0xd2f54f7477dd273a855205727f6cffe0cf9b92566136377cb36edb04493dcb1c9ffa9cdb8d83a53506758c6af2a658efcc06aa659297f2b74aa58fdc22f4e8ef6a; 0xbccb04883e6676edd9ff5660bc7c464c987cee7da12d2893aa3aa3175ab7f0cd96645daa9c582e88cd9b51a7c82e10c1bd4808c0ebe61e953d21e6ea3f51768ce3; 0x15e576911f713ea32a0b43838c1a337df5624cc9f6b488c784dd7577822cf6deb44d3d3fd593df6de8c501f4f2235289b6f3f3accbc7dfd7b0ef3970195a778ddcc; 0x5d5a05763477eecbfe2d0b4f67ef218b4d58806336b7ae2f5587467958be89b36a4873d24b7cda3887a7e13ba14b0346efab0cd3509ca04169b31bb0e8d6ba5429; 0x6d74d999591bade4f0e28660b9baea6fc77a08ac975da1f9906aa6ee081a607fc48ef28b3c6670f29fb770b04f8824aaea1ff7830dcc8fb2ca476eaf9d96b1f1ae; 0xd86d1cac982a567487137f22f7b4cb27972491cf873c21ce4c80a40160cd6235290fabf95c5d305c30a4781726c6a97ba871e57fa5867f712e9746b3ae80889c42; 0x12d05dd813fd9dce80672608a5a13573d235a01437421b51f81f00496fbb7e02c8c7d0ef350568d49c432a98e59e82b39c68a5bacf1f2210831a1b0868f200a8415; 0xb6d239829beeba7356ef18877d7be1271d4f4bf772889d134f22f7748bd354b45581946deae947519ec4ed0af6976a84bedaab8e877c81586fcf2e900b39890e3c; 0x1173d08ae2c0e6cd991bc8b3611f3c94ca47635f18d501ee72af81f4d92b8cbc901edb6bd7d1e592280c8903a4dd886032e7378692b92366063807e86081b6aa7b3; 0x17d8e078206db8b92eaa660779250c6ce2b29db0d438d7eb9575a2e2d1c7454132eab349bfff4b37ece6d9b45fdd8bef959ca80a18a0a48069d106262dbff9c541b; 0x57441e72ff139218df153e1d5992638393aa05a5ad8df76cbb045f5befc1cd1ddbdc2dcd005cff3783d5baeb549f1081af4d903cba022ec743759177cbcb5a6b53; 0xbd82e9a5eb31db57d84abfcb8d3ee076c27532f01e5a327396f6895333a1efe5c4c1378eb694a4bab500699e1c2a07edadc464517e4b4c9c8fe5c974e21352aa5; 0xe026e156aca7d829cf40dce0b541a5c573a7284fba855af859ff8f4012e1bd08841d77821cc6ff65a7766ba288734f2c648d220d25df57409df516feed94a1ea97; 0x14b8633b717992b2c2bfbbf7e587b24686357e73e6e947a3e15414725fba7cccd50064432740d66f1e4ab7153d59cfe4b6a07b583592ff8ef22b4a046544537cc7a; 0x118aab4a67691ddedcac33a9665878cdcae18c99950e3f42f27f4b35224c3d5c47f31aa99509a53ad9f30bc890480210d1659d0562e689bc261bd2dd818245f9245; 0xda47b2e79d7c2221a59daafcb8b7cc854d1665a11a7412e8449e3e4ee9eef5f356d1180917ff461369ae9e2cef4d67c5b691a2a073a0b815bceb934601d371cefa; 0x1a84a00d9fe02fe8b7421c86fa1c39a5196f85db5204ba17713276e80effba3a679bb05ac2d572be2ec08916788446e8f7be187a22365d0478efed7c8e9801b426a; 0x19111e7d89dbc1194d68a254accc3d66b9b190afbecef9d4fad7cef32cd0e2615810cd193ad84a5c2de58cc87fa6e82621e72beaacc509a51f6ef95342b2f9f67a5; 0x195f79b1ef72d3d3500d31d8aa76347bcc03abc89ae38a02c6cbfcdbce6f59f28a1a7a082b313cdfddb265026cb64e680eefebb0a5f94c4ab16b25113586814e73d; 0x6e30f72446860751ed3f377573a2b04af67c2567cb2fe1030d89019e1798918e7b7c62938f33f3b43740d95d728fff0b4ef92d761e8611be7a5c91fb1b224101e3; 0x1d9ca66a537999d8a9c6b9dad2fd7baf7e9b973c4243522fb30cffd82e0fcb799655d4711b35f8cd04a13c366f5bf8801425aecd3f9f94d1f406a73bb24887610dc; 0x178af15bba87df456d1ae070f6ff02ff0559f092bf6e58042d443534c69b6c307ffbcf9c14025ef3b5de3cc1c1114e285079a899f3dbbbc14707ba7035ed9097d32; 0xe5f573dcec36b9ee2506eb21743573b24febbf7e07bcd397ac07a166a9fb67525869ba0940729de84d13233f91ac5cd4597e2be750b4b79222bd974f041de8e175; 0x115eb331bf716a22f7b560f11b36c252e9f99f9f6a777749883c28b510a1fc32786d780a592632af30062648497dba12a32cb1c4dc6a2876677ba3812657b2ab312; 0x558e1977e98b33ebb05ea698daa30187bb79eec4718767e40c7e89c13e4c8809f2dc715ef7142287a25a76f2f6ff69e49ca340d658fb701b16891fceb2f8f345a3; 0x1cdab62e8c61cc855a1cabf13069c0336336660a817e7406c8dcfd8ff7a7b6d8e6f9484441731d4a5cecfbc9dfb3fde6f8b548257e6114caebc4a788a3083e9abb1; 0x463f398102004d765755e0fccee334922f1296647e540f000a318aa3c70b642668ff9855f4321414439abd2e2da89b8be58eb2d794b7a687090378170b93c5f303; 0xafd912ec84c455dbab22e8f753b9526556ac261ac5f5ddd8a142e93b602d1c2e6ffd58b0ae9572ea7112c625aff90e97f67addb8b4bd3889c100ed4febd3791fa5; 0x181650588b3f04231d82068984272ff16f3dc9f0f6dbd2ab01ffb155f71117bd7178d77bec205471b10f89b67de854d05d4025a0281c401efa443f417f90fdbe861; 0xd972c193e25ccdc710b53396ac3c17e64e6edfe67c664b119a13c6cd30e66f433c8b1ebfa395f4c8e7f447c213875738e4defc1b14db5dba5bfe49bbe4f592e361; 0x77d155a408c100db1411433ad842da2cc8ca908cc1478ba7df995c9a4ee20e8b239c77c1568cc7dff6a370efd090ab945af6f2b094f6d7e82b40e7d9f1f23b8ce1; 0x85337b7a212d955e5090c5510017b332dc521be2c6ec522db427dbfb8315e4e6003487d62222a6e213b8e8a7b25c02c406d68f11beaa4738d53aa89919a63ae5eb; 0x67cd43198e1644a7eb9d9645a5a8172aa9872b3f37607c84d6d14b64e0b3aefdbe972202e28891b8590e0ef8d445d7faf0eba17faea142a6d66590c259ae8a46c4; 0xbf5f6df391d1432ef026cc2b168637ebb2c733ad7ca3d270f8d0f4995a12a6074353c4ce05ddc6e79fca9a743ab7f52473265bb3bbd7c1f25282dd1535ffa4f66; 0xc8c6cdfbfee83d45810849d6b0a5f0f70a862dd6331dbb398bd5665ac95a89acd38cf725c9bbcf42c210fc85ca44d828ce4edafcbaca68051e76796c2c0def3a27; 0x17dd37f611f6937ec85312e3949e151708b4ca2758bafddbad946318210861362ba311e43ca9ddee4ad255a2858ff003f69687f6d9d43bbb95d995f569ab786f8d8; 0x121ecb5bcdd8974ca89d5035963bc949587476dcbbecc1b67033ea0a8149dc900541d7b70956bbef11bfe7beaef53621216af083132bbb62855538dc4cbb032467c; 0x1ce1f49556c8b509ff170499d64a6375d0dae7890c74cab6b3bec7c59943c3fa216d76205c7ab77144b17eaa683190039794483471f2805a3b42482905fcf1b34e6; 0x1b42daf449e00741746b8fa3465068a61c1b013fec0752b0e9afc9e2fa529d048e9b554231c1016338c7defb6b682bffb3c618ccca399917c1b35dfa3b9c2b01ad5; 0x158535338271487ee55f9ec997e2a6b1154da1623745719b7a3d04b2884ad3add17fc52372beba305c3ec66c70bcf3f7b8e0e3fa78e109e5b0d6f3c94fba8e2e08c; 0x9053effa37cf5198f9fb7c9f90ff101b1907902348116a9ee4d6d95fe2ea2cdfe39eefb2b0cc4df40db9269cc37f2622364a60d822a7fdfea5a1270bb8da601eb7; 0x44e23ea9b546578b68374b80e0a0e1da18bd0dd4c79ae9d75964fa7d0fcdc4c9ac3859e6a07e28bd6f99451b421b0acf927771bbc35579d83855df76c471c74f2c; 0x788e503dd7c9941e525e9b2087863b4f13e345ca245f831720b1176daba61b5f61a4c89c8fcb35de4fa71011679ee639a44eda34f7e65a6d4f4412a5b4b64e2de9; 0x1d8d0e495d6c0b1bd9bb47c67920f1b2fcec7dbcd4e78c86147ea1964b6dd3abba657069620d0f92fe363accf4c133d997565b8d3adff0cfb55a2639a96216dd990; 0x16d8d4e4ee10833dfaa1b3d261c21f1fe33b0b556679673339b7fc0e2e19ef19c8958fc684e76353289cf7b36227125a4a91a933fa608e9d51107d0072545bc3938; 0xe1400a556167d969163bfe5664765a99b2c44e6da061cc45cabbaba2d717a7b1c2f5a3a8c733170e7838ef7abfd3555ab7f23d90a1c2a43e22adfb42c0609c58ce; 0x1242e75f16d24dc17289b1ec23f92b3128d483f79b4c43be9ad8d8861a6fd7dd119d7f77f9c78fc69a7cce881777f9071c322c80ce24cae0c200701fff4507dbb5; 0x19456a00e89984b5f18da6c558a222519667b5cbd59f1d8547f7acbe69580e97e0357641b5dedcefe8a471c7f79731182b7954236d8dfd24d8fee72ec38d2663e2f; 0x1acba93ed5493e3c9f55ebe46be897fbd8b4c250f203ab8ee79e8e1964f2a1af6a781ad944ca8ce0afc4161f3be0be295d88b71b217c15f7723210c61ebb7894d5d; 0x1db5ef1e508adc6c05ae57bcb103c0cde2b29ad41fade1d32b5cdc7e074ee814459cf7c29798eb2b94ca9b970c00cc78611331c61e806335d01fe6bc32b4853ad38; 0x70028148008c6bd6adbe911c41bbd65a29f3532deecd76f7c220cec41b037743b01d45faed38440d8470e2ca766df85a5910fe069845023b0772e9e4dd543a1a2d; 0x11031ff206c58badde3a297a244781a40231c82166bbd755fa118096d71601677888a1ca2cd5c1a1d8f7f491f7e3de272a81eb87e42317688941c6b948aa81ce469; 0x692d7815b2c4d0440936ab63b93dd6c5df6120be4d7bec38465df90b51874d402f0d33ad8ed33ea32223e145c0724ed782ad9438798dc2501dd502c41105843928; 0x143c208ad4eb0ce941de89023e2490f5276e45e3c3a2fe70ae25cd29e519686e2ca13e61328d9dffca6fe060a57cf97f6d9a0f15d9969bff618ad7dd1a92652ae03; 0x1e8dc5b80b6efa3ce32624d622af2369305cff0d0290d765d2563060b944d03f71d92441ce5c6ac42f528e093ac30e9434c3a905061ccb00dc663745fe81eaed77e; 0x178841f841317aeb6aaf8ad1a346580971af03acba9fbce7692dbc6bbb69a5836d0429f9803d3f9b655d67f0131b82f5374a23c6f2dd56cafddbb52c09e78f5eb0d; 0x1d90613f0d4146a15353ddcd21dd11444fa2cce108e7a38d1993b40208dfa18ca57a5fa3d6167add1cd62c624ebfa30880804675013898593fdb76ddff78a6c621c; 0x1bf14405a7ddb5927a421d907998ce3fc122ddd641ef08625b941cb1409860e7c6df9e8512b0f0ae068c9dd7abb2976b10dd555f94d1bfcb56c6ed5e3379468728e; 0x1dad79841784d0562381acb074a43bded4fa6d73a21607e540c3a100f3d63e030fe91bc1c2fac58d3a3d066e87f08a7df4f70e0cdd3bba093467c2e5b108fcf6dbe; 0xbc3cc04ae65d26acca1be6c60a5cb74dd401212244617e1d21bde86642ce71d012e7b9f893f6e2ccca46421d7d997e2a484e6e3d57430201bce7577b9165a654df; 0x171a92fd9b05255f2027bca178dde2b736a6d360270b3a11d78cd80f45f0fde56348dcbd1c49d900c187265f5df6a3e4368edcab8f33631278b480f793566d32b42; 0x426bd84638f693fb8b18119962daf5882256195eac8025b47e1ce68dad846069f4c3699adbb7cbceb4b8fe8fcebeba6ff99372bfaa25857bdc08915e9fd5307dda; 0xac6b599da022d832eb89d20d7a9f9cbe620c2827d5eac87acb88cbfb6fa373c95897c0ac0472d9b0a7e47d7dcbc13e005b769a3aad0422495b637b40e0181b375e; 0xe4d7f9185f8ea2ee84adeef7e3beacdf6893ea5c3eb7536a5fc641d16260310b5f73994cd21a8a88bf461f615b2939b092681c61cb6cdfbeb10a78ace7d4786643; 0x1f82d0bf231f133d65d1bc12814457a5b2bd82df9029f63698dc33c596073144cc4ce97334d7a94f537f43cc69014168cc8037517989ca137e484e10459ac251ed2; 0x1339326256dda2b3b13218b3c65262c1d22fd9dd0cd44efb93fb5c88b34695ca5d0811821f81c060d9faadf21d32b1efa7c22dc5a161be866c6ce4a54d705694370; 0x70a00f8b42df96d3aeeffd8a2c5dddba8f42028cfdff69412118f54364e3f8c47380eadf12ab8236fed81a572a69787043711c3707ccd84eb030088561f0684820; 0x13feee5c539bcaf07dbc4fbed596c61d8cca29510806cc3920ebcd87568679ccf72f7c69a12039a9bbfb1d5ee046eebd455e84a7e6a146b88b006f5c172b40c3e3d; 0x17e7a544f0dbddded1b0f18bcbeb5569c3394e1b4148409392a474dbcca4d75ff545cd710c04e68cba054d7166a55f07ccc73247af0f93680019b99a0b99c97efc; 0x911e413482d3b5d0a87e8945ec80ba9fffbff5b3e85073396f692774888ec448a555b7ff76ce8642d8596448b2476533d6e51680f837acdcc35bff0ef145e75ed9; 0xf85fe808d0d065b959d9d3650841a9ab0d79d4c3053df3cc222ce6b95e39b65f26089da310b21bb5d3581acd1254789e916b624f42451ffb9d6164a5d8ea4ae5f7; 0xf89fdfa50ee168983b429399b106de78dfdad3f29917a4b0dc89bd1aab04192248eff481bf7d8564047beb1279a34f41177e4c4cf71dba22ab5edd3617a7c1e5fa; 0x1b41478eebbbe473774af76e7e51f93fe417b47fea21fc6c22d97bde00fec490fa5498ac38219080692c7b40d0984e41602ac10eb9a1980245a524bfd29b6786531; 0x392d8eeb87e65b3475623fdf398b091fd6affa68a83da8af24473f8ec54f41706b9315df35c6e04d67f79060f30cc08d62365aadb4a098735214460d2a946ca14a; 0x1e46cfb05b318e249a6f980999e9359fa2e46a62cef7fd7146d6a2eccf87460e4ef51ec65d016d71b50f8d2366569d1532ec70f9be0480d3365b9b74b04c98f5ba8; 0x185c4d9643a28f8d9dae91e287bb898b72b27dee5012962cdd79c6c771998eeeaad4ef69a1d28110bdc629e1d9352b188d975c8cb3ded84557db3782e21486ecde3; 0x300e06013a6c3c539626d1f3d837e1122b9f472673c07ebd6ccb7851c9cda32f1f880beebb5506f70abda43ec85faa61e8f13b2157024fe0591456b89c5efd19a6; 0x616179665dc45405a2430fa3159d21f2dd44968e16520d678333157f784e2a6a1d658b6dc0cac20d64cbc0024646eb5cd76698385919c7a18fdc2571ffd296f031; 0x30f5670d9e67ef760e30b011d9b08322ab8d8340e8c3ecffad198095a39ceb07b9de26874b6b8e04b3962018cd1b1e89445383d5a3a58aa7501b959f52c0d6a913; 0x163e366291cc7b64bcc17e95d7997cacc8f2e573bd6a22b15bd10ad710950698093327c5c038cc687f95e86841e468b1649e4560c00bf790106cabbfc8e1c270de3; 0xec5327468be125c65e057312daae875b8fd3956b133ef5fc40bb8ba028bd770159fe2dd57d3f2f0b72abb3e632dba3680b71272798af882cb7b01f359e40280316; 0x1619a95787cc6e028d8f1251a65a87889dff8b9ea643f710c9ad28926aee1e47380542a147de0ea22b61785c4209ca8bc574e300adc5cd3d7b525f9f60391af0161; 0x185f74bf146e93113b6a9dab8db25269fd79eabad3ca742e8e04273f077eeaa7954b35dd63bcded43321e50b94b24d45f001913a3afad213534ea96bee9c96747f7; 0x56c42db8b3a097e9121eb85ce5b7f23b90516d884c47351fe5a99f7cac43f4a09129d5a6a6ca035a097b70e99703bc3c0c25ffa73f8425fee309b6144d60d29d5d; 0x6a4286dece3f0b05b337216ba2bdca439a237e807a58b8f4a052af7248d3f304cf25fe64961faceb121174505140a1ac219038692fd9aaf5d90920fec2b1909e55; 0x1231c14cdbd26ddfd09018c662d1a02970515f3488bad7a8d2f49da84f9b69a54b4315b58d28475e1e4c380462169b41251c7bdfcd2560f131da3afb7d0da137a98; 0x1c0b72b62c5bf412bbe9fd90c29a0543488ebe6353425eaa5044688708b58513faa22b5fd1342639d4beae7f646dff23158933b114d0bdd0a52dff301c0a14aa829; 0x53ceb374b2282b42157c84ae4a1d4847e520fa26f1d617bb59ba10d1b3724337fc182739dc6fa1c3fce06fb704c5fa67332bd7b456dac1c978d9030378e325b0a3; 0x1d3f2569790a434027eed3e5c98b1d4c4707ffc12d3273c5b751e0d7b17552d6f6dc7540e5d38146254d3c52ffbf403865e840ea8a70fb95539c525e741343b4e02; 0x66039588f7168186861c417165e8992fa59413907cd891795ff45d0e1f856e0a77037ed91a1a6736f6171410268782d692bf201cb97735c70666f627e64a6285d5; 0x19d3fa34889d60e5ab99b1a8e725a486736fe2ee159c7baaf43cc961ed57fdf5c606d5eb265a30869410362ed65c40d0d4913948986f8e13af0d0f0647f8e94950f; 0x56bd6284526487057d3f1e403e98df2b0e15c338495c2e2d5374faeea1057aebcc88fcc49d98a0bd287fb44823bd4d54095f64395c565fcc787c5e04fa740905ba; 0x5c708bb54e1aa7addc9cc530d37efd4bd436248ddc8fc71a8285913bcb765fcf1c2572b84b3212a306240804be6137906ae283edc39b85262e11a6be773156d1c8; 0x1d61e2cb6f8975115aa08577ca5fa4ca137d20d60e92806bd220da52e4b1a28f1e3f96fadad20d3aed9be781c49b1625f9e6f163be905e295e2e3dc41d595b5840b; 0x1a729ad5a449f211494891f170aea8acd3100c65938ba00bcd71f7baab3e5b4d83997d82a6f68cd511b0fa2e9611a030457835db12feb0a8f261dc00b9c9b5b2823; 0x8fc5d323ce154d09aef271be17fa510aaa5579809e31e0b356a664a34394d94cd0d72c69c734ec1c3ec9aa760d592cb42593ff0207f3c2a5f3ddb93979e2f6f449; 0x54ab29f12dbdd1ca3eb0e26885f00dcd357ab7ab7c6a1f10df38def09143f2dbfbf0dddc976246521645f2f2726dc467cc0a9c56195db9bfd8d063df00952f30e2; 0x29589b417346f54117a3c5998c4ae56bbfaffef3ff547612789207b7a9ec7c16cf2169297f58b023d50fc1b962be850d0b25199bbe9421518c1afd5a2e7449563a; 0x5b37ac87ee8163929a88d22abd8429820ea4f8b6c365f0bd89ff9c3cbbf73c4fc6d8f4d43ab8cb264af9691b9d0bc64777251407dd748185f9d075670ee5b91ead; 0x14ef6b9c2027df6da69bab24317545974e3ae343caea1a8ff2d9d4fea052bb2ddd0f1921b96eaaa4889aee9ec81de84a89f4d68ad12384ce0164b38986691da76de; 0x1a8d769f18982eb1a33e0f0f438d3d62a447cfbe59fa9cc836a634b75021a50c1224eadb2559499482bb681d8a146165d5a4bedb7bf9494dcaa69975126dde55c58; 0x16ae04b2f3ac893b7f7f7ce09e93cc50c60251095905829f86a99805675c3a5fcad97f0a54bdb80d2289926c4fa79539a1df5f9cf32ba2038afd86ca3c8849e4bee; 0x6ceca08602fdd54c20f7d4d24bcd2138dc65d3508f5031252997e636f4e6f47e132ccee13941bbaf503b5a0d49fe61cf9591ad5db8a47928bbe5921673c8074d4a; 0xe63da380ac5c3db92c449722f9b3fd21a2751472efdbbe68520108828985836d43e39811eba536afb4a8d220fc7438d192f6fe724b155af8f2a2d8eba775d00d05; 0x1743b923c04ddb8e403a94936bf49b9792337bdd9d12dacce9337c903f0d603ba953dab1dd66938149cf9e3c6426b9b5e225d7c4255e15f4f8ce427baa0f090457; 0x56a3e5f37fa9bb0fd88d0912d67dfbfe45ff86c589aafea7beb9451c5a5a31c29483baa7489d858d4d38e947da55bc49f33c246b6f9f22c4d23c89af0b022d6b8e; 0x1d6da18dfbcf3bba2a5c9217a36d1d4ee2bbc57f65c492513086193abd530047a5fea9106188d6dbad55d31c4259c987aa8f1f7666b82f30986b73591809e6d72c2; 0x14e9928dc397553de1a0bc755e13b4bb017563319e364a264b376f31043ea68cebb58f7794b534a5990c88002faec32b57dd31de5a4a43c999f54c47986eee51d57; 0xa0f0c73792aa2d8eca7016a70324d081e8b73ab0cca0ede3afeee40eb4b000b81c0c92f484d526f4160045d61c3a895ed5ef307e565dc170853ffd0323ea142df3; 0x21954e1ce30a3a369b3a551510eebc888734aad9d136c04f743739084de45a34ac51aaa609d4d6976ab46907c654af9ce08d9c4f4c8278f7e402fe3d625c161e54; 0x569f3dc36d321e3224b169d58658caa4df11b73ad16fc184eef3744f011c9b8a98f316d1488ba43def53ccf851dfe6133d1f97c7b44eb20d25b36a1f6e10a5e0b7; 0x5ceb63f9a0196a5c19dc15f4b95ed991d85ab9d364eaf9d7aec9f3499facb5cc55992ec9697cac51196d48fc450740f7dae7ad8f5076a77933d46a098807563ec4; 0xcbeb55c6ab0f6e9998a87bb9b41fcceebfaeef92350571d551b60ea8c04b8edef78073d5c4e2465b15d23e914ae1c92fcca721aabb1c7e7a8ec6f8ac77ec9f29a0; 0xaa36c7bc9aadd68b3ae2bda74d2567e21052bdc64f3e41961657b4af4ce8c6304c473f7665d865bf111b86e8158a4aba00768e9172b18e90c58bab0c41d36b0978; 0xacef13c0086e93857be8f40569649508304cd844662ecc58c2ecf50dc3360359e96411ddede50e56180941d54025985eb4b99b683d92747529d34b8b112cea4d50; 0xad2d866cac93226dbadb1584afca7c5126bc153560efd7b469e75c51608a77d50b117facc44e943cb4f024f8c6038af504f8c3445131442b5c3c90b36e229f5582; 0x2adb2361a0d6c4175d58cbf4d624a69505e341d7604f059eb6122bdf81779d28886f7d0358f70c53a6e7d2c9eb6a80c657f0e636a93dfec6faf0184654e2d35fce; 0x381258b7bb771155f32595fa86b69265bbb835b3fb41f52a963528952346a4926e84727d6c53c16d9a7ee9ec28d42829a25f6087802ca5a098f4aa1ea1b70ad2f9; 0x64a3bf2ed616d4fc8aa907b97c93496fb33a9324b90cd7d534ed1141dc5e75ce6b073b90fac3c5e61f07fc6edd4c6c0f24aa994f888414101dcfc04131666f98fa; 0x119495b6199eb0484bd4445639eff70787a99a95e20fa10eb0e9cfb5d60e2ed534447b62dedddc626da67bd9f22dc3cfecdafb5d94535d14c3f0e761f1fc8918a1d; 0x1743d6ac36f98141e00c04c15675dbdc0c988fedf42d61189b262e09cc9ffcea77d7b4e5d447c2258dc9fc132c24012d8266b85c9edb7199458fbd9493c6e986622; 0xeed01eb26c50401326fe93a82f8a561ad104e0de22de717952d8a7772c1288d1aa3d349eacc3f5410fbc10b4b46742a22e1aa71b8ce18d8771baa2e9a9cb924310; 0x1ec602e3a14dfef026ee659d94cb4b4aa82712568d4c4c470196efe13ec37dff980f62d2017742ac0beb80ea99e41bd01e4a0a74e51349bdc09fe1ac18526c8063d; 0x97da3f2b88895880268930df6787b2c9506b364a06f2d52c4317c8e58f7ef4684a420c2e1e2470ab7a825c285b36945b3964f11cc6419352cabf58ee1938def8fb; 0x1f76683aa14624772c0e4b1dd25fdc3d2f44e1c5a67aa982fcb8805a22f5f65586d005eb6a4e94fb658883cb2e36da8d52b8bda7eb0066359bc955392f671b2e6b7; 0x1d3e72644032516a3bded54abff366ef41380da0d1e63c29f75620c293e33572955117f48f6088521dcdc22373b705c97c41e5521b88c5309b83b887fa505e7b502; 0x6f1cf88bfcf6f19e50e1febc61b25f855c6bf25b5f74dbd1372fb2de4080c9ef27d01085c49d81150833b2a4fe0aff063283caa00f4c442f1097afe30cef3c7e0; 0xd50854beadac3eca432829312a57b427ac37ddb992c05e35cb5177b9e2744d4223ee585f04552257be3166df0a7ce9e15fac04441d8478702574163e685364cda6; 0x1cedfe2b70b2169a3098d7c0683e03188c668413ee483b8a62eee23cdeb1f7e4396adc04938630b96ca1eb5a4ada97384922430b6131c5f9ec353153b426869caa5; 0xacbc768b232eac62ccef734c618649e4615f96affc8ba5433d56fd7520b81de8d01ba66ef0c86a06d2800eaad2f1f4cfbad571b2e6b83dab45615cefc9c09ed85e; 0x1907241991395960f1355d435a6bf374479eeda4f442a1f3d881c8ed3690cef7c44e61b229ed23e98c68ff61c68c7161d97c71838607ad32869023386fb87733b62; 0x9f725b3c88e1aac36836c9fdd6c41bf2b846d181b24bba2532b35ac21a675fae914324ebb1b3b639d1d2901e6ac10f9ae107cbf94149f048c5d0c182db350e389f; 0x18898cd288901490aea68f0e29aad79d7c11d1ef1eb5551b6586858359411de4dc6d89052f541902d5daf21cd822dd99e1149ac3c85c6b4cbe9f0c6fd8c3310371f; 0x9803527c3f903dafe8624e47e9469320aac36a067d8af58d01d70d9853967007f29bd322ba57c08c2534172791f1c1f32bc2d40bda79e91a3c9e07f69d65f16d47; 0xd708633e6da6645e2f17655be65c4fdbfedd867a1f5999acb637d8f69324a1f1cfa5bc1fb8ece03abacdd00f0d482fd5cfc2ad45fa15a6bada6eee603d3043c962; 0x854510f58fc4192cf2d73ea7f006e497fe3b04763b5dd03ba84ae4bac457cd54084bd791ef9c0ca5625bce4d83b141773d7dd10ab08e55c3b54ab0ae8f5a1e43ed; 0x5bc8b53a74e61d6ab0e6775bae5cf226c1b2bb044d5b99b54346a239be7705da03bbf3caa02aeb64d8a15bf3796ecc7b416a9d062d92d4652b0a71fe7d581a277c; 0x1c1b5bd97d8a273c645fe554e2d3130466d8a1d91764056dd23aeb0d7bc83de696b4156a0f7c991bc0f724429c8d50948cbd0282feecfde93be1086b8095ae33e7f; 0x1adeb5cf1ba85e2f3e94d2ef9abef7568f039f3f90ff2c8d2ecc9ea61bc27f790f286a45f681a2e316d5584c1786ef88813326de7cd4d2f4e679132d6ed9d17f54f; 0xb988c26b1b3de4dc4b94157fe6c0ff7c031ce7f2ece54327e77f28ecc7c93649b6759cc57697a66cbb4723dd6e5e56945a98d3eb342182b4e2b6355fca2aab47e7; 0x2f4b27fa42e3a1765b87e5ecca6e8b52e0c7790b9ea93df70fdc04517cf32bc02038cb0771a5b3d0617e9916fc4ee345fca42944837d72be049e2d982bd8139799; 0xa09eae1361b5d40479bc0e3b8c4380663c865003ed62b4ca632e03f97378463eb91fb635ad05a479b39d293cb93a6e9784f021291ff60ed8049fefcef3c83f8f31; 0x99b1e75f4b497fe28b088833a6ebfa6de7d3d3b9a4f58f7037726615e4ba7703bf43f8c52ba5908c4c386122d8061c4ec5f61de4984cd89d8a2686682bf5edb323; 0x199882b4d6fa825eadb1abe64402e2d1109fa295e4e1d96b8dbe9daa7c688d32f1a20b937a4d1b7a3950322c78ea61c6ef82daa184be1c27a03520af9fdbf852fd2; 0x4a331583c556099eadd4ccba13fad7d6453b5cac7ce0706266b0e00a5b8c574a3ef4dbc9bbbe9ad9b3db4f1ef9b57e8c0b39b25f7238c0d77a03eda7ea33cae019; 0x1bd987034ba3e3cc6b3f55210a4b600723df46938486b18dc46accb0081525d4df347646ec434e56497004471afaf7b98b73bb382b91addb092ba3779d0cbbdee77; 0x1af55867a12b7406fe5d4a89597ef1d6d63ee10ceb93cada3de53d32444a94b038a7498e491a1ad9a0818a6ec94d2fdddae432c296984eba36403a9aa6c254edd93; 0x43b6a710776a07387e3ead6e8f0cff0d2f33aebc3ab9094d264dfe80436b8eb4262fb15d3de88de72798f9aa71acfdd9ed4a48027f1e88367e628a0a5cda36e3ea; 0xd1fda67928c6cf170e0a5fc609a995db57f3730e672b6e58cfdade779eb5e50bc98d3cb21fa7f3537eb30448f5d27001079db184b0d203f43cb26fdaed2b39f368; 0x1077c70bd2844bec0be23b5d64dd021ccb60d2bf1698b3a8463909478e6f45c0b6aa558acd8f35553a164dc78d5513e2639265ac51f8615ee2e40dfc1ef5b1cf1c; 0x77a5a9bab3a6961314a6ad48f6d015267094c30847003c35a2df956d3abf782a59f90b4092c7785f5a9be39e2fe6cab80e642ebbf0698e776434c55a55032457e3; 0x16a5b7c5ff85104706907dce463940615cfd7ad74b8fea13964ba10453740bdd2ff8e4a3ff208da17a5ade84fcd80b74ddefc53c5991765de3c8f4b597230caca07; 0xb12a16d08a72eca4b86fb915f4947d5a9652a1d18ccc5cf85d62a64d56bd76d2b9bc3535ff61310210e7ebb5f624f688c348e86fbcfc9c1ee45d145d3889007eba; 0x10f9570ca679abd171840289f36cb90c1cc0b2685aae2ac074d1300820887ad927e88f7062556a6563a0d4ee90fa21815c43a5e9e416853eb55cca0730a5a9ed890; 0xf2b76382eedf84fb0dc90c3f50cc04a03751bcdab864bac4754922ef87730b4ea8d1ed1eb465ac593cc6f030b741e4ccf1568c7e5c83451ad2f553a68d9af52d51; 0xf7091c851c1c77824037bb215dca2f02eb413ac0f76897e00b8745f300a87d3b6a14687c6d30d64800ad7f87600874e0afb4b025baccd86a7a87341a67ac40b6cb; 0x1caca9b64846a6702efb195cd0bd1aee31a61caf459bb79dd4be4b0c0b9447feb243e4def3c67134b3ee9146398398b3cdd4a838b35acd7c06601bafad5b51d95bb; 0x11c2a24b313456ef447012883b57140584d11107330a409ed25a546b2fb3bc684b9d472e0552429accb218c0c1859179df756f8df7cb5be5fc7520d2c45c72ae2ec; 0x1da54925bba488cadf026836e8eb1abe5450cd9f9838d58e80bfb944693e4568d1b2dcd86fcef2b78b95bf1ad35d3a08c77d9fc28926a47be10e50ca18d21ad96e8; 0x1d19c3c1f54c8bc30776dac0652b7a3af4f86b98f225984d94b18ce994acc3965f568feb51db217779ad78366356f0a7dd6725680038c08cd005a9209266a2c1a86; 0xc3946e3a13bb5663133050e291181178b4994f598e0ff0edef29feb07f5f0c50437cf8aab3c79b53811e840beaf1cd7931fc35db63a0a5458fc46085065e9582ab; 0x3c59dd16c527696610134b46abce3db6e3eb236123d03ca9b098742d8ebb64c59113fc3d6259cea659938cbcab0c8c71ba3ad18baee7d8d3213b770b3e74e9113f; 0x16d5d054af86e61aea3a41b711278210018d550662c3bfcd6baa487c355e6d85e308f739e84690d7e6da28dfee036e28a06f90882d0053ebde52459405eaaf0c243; 0x7ae98ad3214999d7cc88569cc18c35d2a101d84e165b27d860ea26d78e552e219432232e2110f158c59f2a1a671d44bfe680eacbb89591ecf9fdc6547e47aee1ee; 0x1e342cc5989c1e63538a5f1476efefb4eb3a0769359a0cf50bf923f8b1a6d86bed4032ae4911d961e01d05b05c7faa3d2fe505903902e9534c22286e8076763ac45; 0x9af0f68df485abf8cfcd34fb95eb90624abe9776339c6db0fef63580fbf043b6d9de1a9a199851d84b0b032dc05033a0da7ac02788f9e5241484c9c0369b0a8629; 0x31f1f6fb391019101bf05bb2c892d12e8f6047b0281569fbefdd4dca57c72f1ada5762d72a2ffec9742b35051a43f66ad95efc0723ba2f80562181f2e81dbd66b1; 0x16c4a8c06f194f40af036def31f3e3978af4042087db680e36c40e3fab3bb7694ab99d3b89da2d4a46e44be4ec3290d5dbf0367a5cef2fb8d79f85ed6d4e4b71a6b; 0x19d880fb183a62814311e70df282f1f9953ea676070c0cc53724d941da1f7e530cde9f6caf263642f49361cc4ae08b599028b504ab14c70d04e196f121a5198561c; 0x1fead2351722a916a7d320fa41a6339cf2e66385617438deec3ce67753ced6d23ce2c8abac9c1c2d4589ca52822c4cc899c19c39f2dd89fb4ad09c15114b80abdf3; 0xce3deee436b3613ee498924e9f28603d4e0bdaad9be53b689260fd630c8e1bbfff2c61358630a75274866abcd7e336c75b0ff467664dc430fc0309370231cd7f9e; 0x1eb35677e353d7acdcb7b660777030124e46dedca24be3cf413e000db94d6cef6a6bfbecb97601b8e8576e57ed5165859f8b53342042c176b44098d206c0d2fba3a; 0x1cf849fb14b0db3a9570793cf5aac58701d97979e4f85d85fcc597249fce0e8024e08df7ab52887bda1d35ca4e42e770480be3edbb658b9ec25a0c748803b28bbf4; 0x4fb86ce52478796b5e3bfe9dbe94275b41c73381d2e2877a3e50fd8a8b00eccea182b19a968cd0332222ad5feabd41cf714783337a7aa67b18506301b244e428d7; 0x1a432a1a78d33e7ed01009a8edfcb6230c2daec1c37259831c12a3cbcddc6b68b70f0402e9e9d3b2698f1a88cc2815826adf0e39a17e6bf8801b35e05825431af8a; 0xd0b236e29160760f6dd960701c96a00a24fb7454c550a84aa33db498e5b4c6c2bc66aaf13044ac4fb6ab2b5b19370a490d59263922c6ce75389561eb4d6e787361; 0x1fc2ce05a0813c17222591823542fe970129aac3e0a48256a61f686ba6c83d0328bc9eea8c9c5d652f1efde07376f3d54866a36f71ba05d30766f19c66f13e52525; 0x1d9749aa94f66907baa1f9303771d8ba080501a54b50318a742bf8736c3490d075f561d053dbf7a8bbb14e97a8aa636d8795b5f3054eb663953905624e0665ee6c5; 0xff6c9c16d54af6edcb08f43d3eca768019d7cacf16d4b04603892b0e11d16e354392bfe510aea5907a6c69399b01222c11b5596da47c64dd0734f1d7705ac53077; 0x13f87f53ee12579cc3d3cf51043cd10f0fbe0bb4a9e125dd3367c5613040d179efa5531a13f95aa2bc1f65cce6d9f2cf631aa8e2ec29d0d98007e6cb7735ee3db85; 0x13cc8e7fae1222b5c0ad9493668366ca985a805d4c43db662487561880ffd45ce2ddbd4e2ed835f9fe70d01a9b59b14b9c16c1fb1a91f4574cbea78fb32c541a825; 0x15fffb70ed7d019db5a7a3c33c213620694fbb8a9d03087669b3444d1fa1524548ba3a0491e3edb04dd9d53fc8617bc786f9d73644847fabfc0713a99a41f8d7783; 0x1fe724105b4031e1d850be83760778f7898c73e09e6ba7f3fe003758a4ebbe6e812cdf50ad1e8eab2ae0bff6760ae051bef93c194348484d8d6db5adb3f21f4c8d6; 0xa47fb420f0c5cbccedd15882229a6b5f1dd10e70d0dd13aa6c9f76f3fa5f78ff03fd44e86b9550677d28eeee32009e072dcdc5d1430c5b61ee4080d3f5d9859baa; 0xf8ee7d2e6e960f0ea6d61cb4393d59d1f3ed5d09b11e26d1a54dd8e466a1bb0c2a0e7b323fb34b6394846cc7bdafa98a2a24e1c4e05f687b5e4198ef43072945bf; 0x1c9d251321a443f07ea1ba3806b1add4cf77b1c0eca34a504f0b1c7b169b635ffb9c3c6bd1a42d62a798c1f2374258cf4fa82fb2bd9e444ce808b5eafebfefb1010; 0x1a1eb88c1741fb0bc81f94aed696d6ecffe3ba27cc35bb18701fbbfde0707397290bb3767d146110bf0a9f0682d464ade8b56d34f3357a33d97b3e791e06f17f70f; 0x48f2c0e9cdb89058ba8d617b996b0f38574c6b403c79a5ea63bf235f65d75fac6edbc5dfcd8b4652162c57494195d401197d01af7a1f9af22cad3502000df6c8bb; 0x13fe7453fb8343bfd4f06db1b02f05cb96b60b722a549cfbbdd1667af441b8fd4cf5a671900a55d87c092429b61dc8fb46429b446e0c802ec025fd8b55642cb2d84; 0x22e6a4a2fed359e9d62379a2391deb4cd4de1d0504e452dd0c85cbc3524d1205593b0373072eb4334ec89d4e41b62d260ae1126177e2e9fa354f3f189555ef9f10; 0xde559f5b17e58c12f7296287648e67fe6c2381afe09e2c9611c3001a5e6cc678749cf5c19a692107dbcbf5ade631f7f734a9e088c2b723030f5c1c973500e35b59; 0x1d19270954fd8e39d2df43e66ea60fef862004a06b018d778196922ac0076e6dd9db30d3e858a1fc6745d3e8f5b50da49aa01a50a04f817cd80a0364ec41658be39; 0x1f85e67c1d5d0b6f89872d4be21ceb4b6886559a5c40ca8b24839eb8964b82f682cdfa1e703b65a52446e07b69cadb3353b8ba6453c35630d1322bc9e04cf3a1251; 0xdf2ca4d1ba0895ac6b583c5ca0305f90445bf46eadf9cbc90114e007f37ffd538bcd27bff24cfd347fb812754f35af96a4a92346da8508b0f9b252914c3e2a49d7; 0x1d068872e89c669379dc0a754f5d30c38bddd3643d63c54f5e2eec00e0df8a40a7abdac4169dfbc56b872c9a496ec583fcd2ce5c0bc87de385f72e1b5b9d2c1f59a; 0x1157310f6084cde7c9a9067462cb58014de661ea7cced688c09a459d3ca49a750f4117399204a2982a9450f154b3fe53301654bd8e568803f18d8c178716ec64a4; 0x7e8008a1c2c06e373c31b8a67889453fb78d68c59e7496c5040a3dc4823be3b580e8a6e956673bf1f2651bcb49d0dae9d4f002530930e5c4886d5e6a279099474b; 0xfadf3f1e5897b091428260ea39c7b25239477bb9ce1a62b943c0086dbcc98f5ba18950a897d62d4172b4b1c19550d333c7fedc6d35965d2e73734ee4013beb572c; 0x1495b58795ac575f0645aa30b29f46bb73efe5a094209bfc928b2174c1bde020fcdcec4019c1d6b04af2e162945e5fe0ff8f66c5b225716a5c98b286b4ec4ca4adc; 0xe3ed3a6e6f681442e1f933292ba2bbbd9f5f53e5b43f24e67bec5f9390f46fb70822391ce0e38f83a7371bedb12d87c78e6b18ae22ccf96c1c3008203ac99ba64b; 0x109e8c107684468608a26b86767affb36f21ef0309100d67d21c68b32aa8598c1342ffab70261c37785db5a68f96e6ada79e9451f160ccc8660a0170e8ba457bf8f; 0xe67cad958b5502f19b6ccca3568b3be0e485dd3a935386e0e34eec3b89861abd2a12b528863e35b5a34325acbc77b58f59fafa6e6c335f19d7a2b04d44b1632a8e; 0x1280fa946d268fbef4c5551d20f415b31891d5510e1ce7b9bd7fe303034bfdf855fdc6bd6cd3f97c2d7f3ba47f0f4ace9493bdb096688131b7927523e494dc08709; 0x17f1d57ed0ce16dad286a8f0fe53b24b5bd02c9ab294005c15e781d21638c718eda33691ef037fe7da4f361d3b71fc79e39d890cc37fee0b0f89303fc609ae9ee31; 0x4da2fea102acaef0399e23e7c1961ea963fe17f0361ed72d487593948db3c14a4f9afb157d70727187c6f8482f900484f5fb269721b76934c819638960e5b26e5f; 0x1317183fb94d965d668cbd950859b0a2e2f2c58bf86a71e02439cb780ac3dc32e46c19f605d3705b29241156ebd1d61473554a8f8f9225cee3a3601fbaae4d7e0e5; 0x9554f4fd18d18fbc80710f19d4f7dccc2abb42722d7053856d4e46e01a63a99a1f8aa3f819a77faf00a9ea0aeaa0054c4db25a19ef0895b2d4c0e6db7ef20dcab0; 0x1ff3741a6ea085228d7eed38ee7770856044dac878328e98f6374bbb4d46d41e0adc86fd0a0de636cdf55eb6c311ada5344b81022af7f95acc61d11fe0547f0d49; 0xdb68746189b16ce42a5a14d3b3b6961e9a4c1ab3b910074db8b58557d268970bcb8b40b4543889eee59aec06835b320fca908cb6c9af60242ac8392dbdc5d40ee4; 0x3a22c9782608e8be0f357b753360f631c7f2c42552fa07b39e74b57f59b5110a92520b72957a4640fce34f19c42951fdf59955f5b0c204196024f386a279154363; 0x121f9b485036dd2c6fd24e7b137c845231c49196b428c663819df354b07a7c5d95f36f76a6bf4fbee19f7a15be991be6d237ad712934a555b3a91f635b53183462a; 0x9d2d160841c62f7e28e4d2b467aefb0eb9150fb3ba50b2740d4e3c71292d3f21b63ee52cfa24bc9c83acd8d777be5a9c2c52f54886d34fc18bfbe06af060f24b98; 0x70ea98d1465ca39d1060448853c577058fac09804356d483073b62c316be27f718a76617857d7e864d0150578b6e73cfc0ec5afa239af67404e241f3b9f9b05f7; 0x1e5388dbaa3cf48c6496c121e8db86c6b690fe02c2dec20feb81369f3b33d7fb513663add95fd2c2f7c3eeeec0f211a011eca87ad590e41f31153084123e92acea5; 0x1f14a532348c2fb4e0394ab8b6e6d1486b706478a1d55ef4fa42ebc7999fd26e9605c5f59d3a2d942fc53b3195848bbaad7df35e0146cbf0954e079297eba6a4075; 0x1ecdd8f03e2c2cb7c3bb2961ef881396068d6c4d8ac961aa432ade41fcd4359340f39d823e9021eddb6893eb404c35e7321e16f238c6678a049d3d7c8e0a456293; 0x1d438705e3bd4be622425b3db428c0596da09a7467b44731a7e1a75d40b2f79f40d43b3d0b9a12c3da698790f1b2b7a6a7a547f4eae05fe79f89767ae58a5f3fadc; 0x1150c2df18cae5d5fd5081bc2ac9d45585ab366772e12413c44811195d5d0a806d67b3c1349472206e28bcaa6d4d9cea1233df6c4a11542364d8c8753876b7a756f; 0x14374de128ad69b7741824dcb93cecc4f87e88eec1ec330c8f0d839aadd19c816e147932086ebb02de4f1c85d317fda0261a2474d1bf1ffb704f2745cecb29e85c0; 0xb9b42f8d0b6b56120756eea9d87001df6088bb8b0184b95a757834aacda357653d8762766ff25bc19212d6899deb1ec18520a5bf42923592c3c06fe0f9462209ee; 0x813c60ab7c2d31d16fc313b7a13458617efc662613ac2218d9b1c40494bff693696a86f3aea10fdb99bcb1fa406fa3cfb0a40564e02add846984ab5854b8700e2c; 0x707a5434086c8e97843768be370c363a5b592f3d3822825e4dbd1d000ed67ff1762cdb1a5a2e2ab6032a8788d7a2b6452cc865f386c067776cc97c19c7964a60ed; 0x1a8d34441b993900a65224a59570750985cb64790981266cb73d405b69381ba06503dd8199824ceafa8d1b5cfbf623a8bc5b97ce23c813b62c98087d7ff62fe2ad1; 0x3eb430444c4b9c71e0671e6a3cd710a777e3dc7f920f992c701d3bbf5ec356d397306c7fad947665a69fea9d52ae3bb62d081e489b8f2689d080692cb53c1fe011; 0xbbd261cf1a266678f74644259120dfff4ad10cfbe9c949e9ac0320cf79503524a2b2a4532abc579a49599fe16d75a3709881e8304e41ab471d57ed62986404f0f3; 0x1bfafb386d93862774e2bd62d4a9bc46e47f09c9b62aab6d8fbb4ed396ae4079d2f3bea23c9deb12d53848bb9067f8642f8dc9e01aed21efe3eef1463cc1f9ab1e1; 0xf50d3e90f5a3c67769cb1d5e61af2fd4c0b0493b91019e21820b9d0a7120798de440613974fd1d69ec8a69bce628b074e683c72d7d92992a84ec70d19e75c117eb; 0x5376ca6a745df62ce2ae5e47647b916f02067feb7ec7bcfc8ee42e814495c112a79609ce3c45d7d4c3cea1524e8eadaecaebdf034fea9ee8898beb238c575f6fa3; 0x1c2d07a060881fbcc5afdb94e7661038b72845cad4dfd8f6d5e703147b5a71b630829efe91a2dc0af0453cc10139c4860b556f7ed8e794bd2114cbb9cbb8c8e40c6; 0xbb87b80b2e9a36ab6dac54dbf66c27a02e849ec2220ebb0a4811be5f32c64933c34963ba3c2586ebf7144cb93bd8c0212af2cd5f8ba0c297ece6501cd8eb0dd01e; 0x1ba9b66b3080a6721f69d4649245fd986e328679141246f6ce4da573609c34f6c0cbfa33fe53c27a98ddad926b6d28163732c6cdefaa8286d608be2bf4312d9c540; 0xa11f41f3f193437b98827ccf6df4a25eb80ee38eef472e04b636927249104b4c3b7973e7468bacd25eeaea25bc488622a3a9d3d0f5b5d6d6deea53aa087af8f0e3; 0x139b9f1b0a3b1a1c1fd1077b7e51525616f1b579abc56580edb559bc0f5417ca20659996fc440a38d50cefbb54c5b337d10148b8a87ead96049888874aff604dafb; 0xccb9d74c37a69576aec06d2f9349b10c2cd467af64d7faac2fa8d83701e60961a2fe1449233351c6cee6ea26c825b9840ab99e92354a42df76044d04cf998ee914; 0x13491e21788e46a17d374ee7f2ead671f97134868c41f9f26a0f908e51f83abfb85ec98624c06e3bf5991e71034353d21ee8754ae319fc1bda700e1617c4c745710; 0x13f72835f3a5abc23b744562a4d52be0e3688048fe8feba4fdc67ce2ca6922b2e06e235f725273f89eb7c60aabd1b569deae33681ae2114e599376338c1c4598187; 0x19b567569f1ba810ddff20f59227d39c70cc7a46cb5987263158546915e1ec6042d6fc6d9fc52d9416fe497e46986eac26d3c0bdb9aeb89380129d995a0ccadfe4; 0x8a84e0b48244dc54acd296c1f083c08516ee0d65c3d2189ec4ee667c0ff02223a1893aaca3c436fc5212c276cde497d69803641023f4ee2ebe4f4794fa93a3195e; 0x193def8be881f24a6c59f6084fcc7a5834fb3c284927614474e736c544c69233e70b089e60c417bafc46d51e794d3f0f24ad85820d0a0fe014cd2a1b3fe418250f8; 0xf573e7963b912b4d67adf07c6f400a5f48e1b2f55d6d91115976ff8a8043ba3834065a6fe9381e3d2591e045a8a82366eb397478a5b7c9da0c0580347dccf5ac5c; 0xd4c9fb047d47d35ee743289c847f55957e24199bd7c92b008d32510ce451260ac3fbfd9b485232a9ea56f53681a13b5d63a881b5a8f7593377a90175246c2666b4; 0x1c6bc3dbce37180f50a8ba8ff0b6ac90710ba0e4c6b9d6cd07d74b4e7e4d772e6b50de7fda5fa7de4b831253c09b8b9fa2d48b86a2183ab5cd45d330e26ccafb6cd; 0x11e93a99eff6d09bf668dba26d3d0187ee6528681bc1496f1ca64f35838c3ef57037fc783b9a4531b88e0a7811cbb2df76116dda2e5d2e49d2d118423cd200b54d3; 0x100ad34c50df8a2b8766224b70822a256315dbadd1c6143ba0de1076b388c102e41c4672a1addc02ac1b4ad0c91a6dcd57ec2983c99e2b2603b3bf3de3d92c580d5; 0x288f49920005db6d6ca1fd36a3f3e15204046a255c16d00cf38fe1495fc59200d04f26c09c6d932c8f1bba87736f49927f02f56913a8942afba5e63f8c26a77d45; 0x18248a4aecf5dfe2fb22d278f86c9c9cc588863c7e505f3608782561f88086ea7c8ed8ff412281b9635990fb83d2f65e09b4d5659a96b1df708fbd13f5a608970c7; 0x1799491916647dce9ea870a04c059ce9baf3efdce7873c8c0ede563d2935cc55e46174da8fb5d276c7bd2b1789b35054ddfe948b64f835f49e343992da8c9cd8a56; 0x1ec665a157112d9b2266943b4c2a018ecfced355d41d0f2b9e9d482c7f0fdbc670675fc2e382edb90456546daa0ea4f35636bf11ca115977a133939a87dff650b86; 0x134ccae390309679d5d44925654beccf7f1edf6cf1a41d8e64c1b49f14af05fdd96ce4dfeaed5c9679d6386a4b34696e4769a080e90d49387af155c1ce77c1e3904; 0x146bbf49c7d9d714486ca248a21a93df9a0fb9110d8efb7f028c8c8f5b593c44b3730ae54d2bfd1b8ed99a9e4e55c102b281076d02ad66946fb81f6807b4e103a0f; 0x5b36317e62d1ac9952b9d95900c91fbe7582df927b27e93c0c2fda238863ade3104ed22cf26662981d68dd06449c310f7b4b4b6f1c6fa640684d1d2cd79910fe5; 0x1a4143f0f917cdd74d213faed52a717ff16f6725205a987d35f3475a3b4becf6d356f79943814a7cf52b5b50065423156be054c4d46295be43d695fac74315493ea; 0x1453fd651860b75174232c326761c655ac08094194760ed3c95ff329632180f89e8840868f9001646b5ad3e17a479d773a6965cd949357e3402a48b61d3be19ace6; 0x12a203dd98de16015bfed940d414fd259006db9ce2236d115b03d9d41aa1a170d3305801aa013bd1cbaf62e9b26a9798b37153eaa4f01c803f4ed495712adaf9545; 0x114e0d36588e100c3c034efb38d56c4e6de203427da5136939fc83e8817e125fbca791660c42cb9ebb07935e59b9f6aef90b053c50ab78bb931e36ac2934ce56348; 0x1e6924bbcb7b0178295625d7be36b97829bd92c43f8f227406bd1bbb31ec39334dc4b87ab59ca9b6fe987c0b11f72d87cc5fb223667ce921cf872c9f62187ed5b0b; 0x122041f562c7790adcd4df967e20364a9b77a9dcb97fe83432fd3481defda19ca8e33cc877136b606289549d5ffbfc7c65ac4de5638ce19abbf5f548c1e51f02a83; 0xd89dee0ebb4a120bab4759eafe73c8d35d2908bcdbfdbc0c6fd3aa241230db8795c221efdb176ae4347d8e578c23a626e1419d64efaff787451a8fb6a634ddf0d2; 0xf6a85ef896e5d14a65c0ac960e0fb78586cf3deb670b7e0ed913f2535f7ed0bafa29ee5d9f5efbd48e9d9f5d61299b6a960cdb9185b84afbb5532fae1c031fdc00; 0x1b24c05822cfb7224e9aaa1b366dc96d92ff0edcdfdd20297627e50fcb009d7147b4ae8be2cadb7659b2fcff8622f4a3bad25071f75e6402aaaf3c943abea5ccf55; 0x1df40c05a8354644c0b837bfea509ac5175835b45918a872356cf90b4dbbbf7f7e594699a73118242296379302ab955db1d57a4b680ffd556430ae2932a42cca477; 0x112a97722cca38b8758011b92cf3a79f85665ffbe9ecd45ec5f3352f609f1c330cdb8ea07a8b768800bcfd78722d02b518d34307792364de81946b0e0bc82175eb8; 0x2fd772c219ae83feb3ac26467eae02ec25c1c400eb21bdf98737817cff56537d53ec47128d7659d65ece82973460cb8e7398fa9dc702a24f5c043ff3006d2c2c6f; 0x1529df6ea1d339dc751cfbb3eb150bcacb1377a4322ef6770382b31d5b469c034e21ea0a4417280c6a04cdd71c2e11e87d10531ebbd401bd44f1d090b43d2be9090; 0x10d4e34c7a2689b45bbad56a717f6fbed8085e323ce4199fbfb78683b3d9a42961dfd3299cd0cf013a6ccc020339675811eb3340be8b6ffc263295ca4f94ae1b795; 0x100b0f7b3b130036c83ec790a0b847cb87ef7b81dda3ada39c603c5f0bd4237ed0ab5ce14b6d72889acd9da49547a239e05535c509572ee3f7e946f445e9ffbfb76; 0x378047891a8d8c43e0417b5e27394778493ca26e1e2b29ef53fc2f11082090a0117102c8456413272fbc862277fbf63b0d468c7093379bdaed1536fea20c1904ad; 0xbb00bedeadd1f60da1cfc3cdc4ae90b83130f581d40dd1646f5a157a016424b43673207bd62c6b181ba0683d47829cc4fff321e470ff3cd8ba960d6e35945531e8; 0x1ca4046ac18aa91034a105c31e61876d60cd6d226578ab6fb667a221c58bf196c46c2d23a3af79752d2cf2bcaa29b4a5907d1a9df7dca4655239c02b204282795d6; 0xebd2443d7c9e9df3355f10b98aa1076734d86c3ac9dc77803e4752b622e270a80e8963b0f9bca8134d35242dc7c3f4f5e132787f33090678d09239413a92ad0214; 0x1cc7bcb1e39cf5a619191d4954fb62e08f4b70665172e8cc0ca2df463e8d8b4e0cbf8ca4f7573c68036e58683b127107b5e929ce90884b28f94e3cc3b20d8bcf669; 0x39d0a3d3218f89eec47abc54a44d4c89ea746d8e9f8ce823a65342f74d96155bb64f0526646ca3d29885fd613dec85e13c19fcf8b28956c518077ee810bba4cf5b; 0xec5b5a83e74f7e15f7ae88b003f2afb50171b8efb2d114429d769d60ad041b8841e12b986c3a9223ee97ac785b46ed24d1bac03e9b7c469c860e629aae9f9201d8; 0x1bdd64d066f6ac24f0afc9d62061fb99515e132156bc39c31a2505c2c1483b34f1a6c3998e86bc7f2e6ab31ecbf671f2581f729f3a6718a6d9614020490f88d22f6; 0xcb92a3c6cb92045086902f43667f8754d14865a1846bcedc9c9c72c963226905a389873914582024a10fdb5493a561d1103f1d1c8333287a3961cac2f33a9de5e8; 0x1ef9f59a7345922262b4dab59974e7f22ff76f3b0d8d1b1709977a60f78f6ee70233984be84fb1723c254bc794eaa2b4e7833a13be082a58fe9e334359dbd8e2d7; 0x8ddb9e25255fa798e587e7aaf9c8a8b92bfc1aa9c8ea42012909c237e7a44efd6b1f509970c5788e6f93649272e4f28f61c7e3f1081141e643de14b71361e8c869; 0x14c6d9a6f60dc80184d254584e75d08d3c168f52e41a62b93f202ec8cec5961063dcc917dcf88e1794f3a97d55c4191ec3c8bfd0a32e02da863f1b516393dfeafe3; 0x1783f475d45317717051ff1f5df1e37f5faaf92237ce1aa91eb825a26f70520f3e939e31c3403fe5cc434a1efd9944450628933d5797b2dd26fc7c00a9260ec0ac5; 0xbe8201bfe1b5268381f974ed52912a2b1040881f50ac8f3a464f367dd3231274fe61f2b6426f6450034504c524117cc86ac556b8f775d5d48a603a25f51c72b679; 0x3e7ca2b2035dd8cebbf2034cc622dd2787ae88d84cf47a56c50b1c97d1967683b7f27ff68a172c2db5acb0b266b45525114909519ae52ee58558f157489a62eefa; 0x1c1cc80033afa3eba631af4a49779b22941e8f5380189ffc67c31876efd6f02f5ababda02451268ff94f9dff4a874519f429c429611191b2efd160d0b8357eb3c6a; 0x16ac6bb6722683e7e0ff8d85569fc5c68fbfd1a70cdec2cae0f727e85f9ff068928415d6ddae03895e9f1c4f14dcef4106843ef04b4ddf47e285bd4d44e54023169; 0x14570a5340edda4c4a2a17495c6daeacd8e9d20b12ce6972ccc0414e027492e1dcc0f61261fec64038afdf466a99f928eb9873598a63a656a4ecb335590112b316; 0x16bd3b5dd220f849aa505d3749d16dd27108c18f04c6b200b308a7b06056f68aefd62535943da92b9671484e1d990bfc104c567ba1acc75fdec74de80a94d7b3508; 0x1e3d78860ff241ca0ce9cca60d7790eebdb41a6b6f0ffee3e7709e0583756d0c0b53924bedf0d24b21dc15c37e507838f9b26cf78fc29087021990260864160796e; 0x4642bca03d82dbbe4d9f8734e922ada93bdcda8d1dad7eda3de1a84a994f87fa691ea96a387e1dd5332cac13a59fa53294e50075d5e09dce99a9fb3ce41cee059a; 0x591bc2b71f1a50db6dc41e9390742c41719a790b25bbd658d8839638f687911c696c251ca37efb44865e30ca3f9456b8b6675207eac1e6ef34d706856eea30e9f7; 0xaa4ef562e80102f047689af0ac74ea41e462d296aca52cfd1680d9da9c200ab543e0726474bb46082f5e398532f6558197ddd123a6f32bea69bf2ae99c65938888; 0xb66587cd5768eb6a340f1f713be70b28acc577350feae6ccfab317c1beea4e6177c9bab34e4573e6a375a547b4dc8fa3339d7c4b5ee4fc96a4dcf4d55258804078; 0x50de834dc3579b4882986a76b1a88b73830fafeaec4a7ee3c9fcb4ce684e70c0a7ff8c2c02f2dffbe0d7ffa7c5a2e284d5fd2a4f48fda93cf4fa37152f2ab931d2; 0x9e37b01889cf9187ed872e2f25b6c3aa495a649d1f8b3d6a2e4211a0955b16be13e52bf8fdc7a040d7acfb9f5763e9e4cea3276402b6a8234080f08765bff9ce82; 0x1d78334272b1299bfdbb996b3380d0d294a422baeb3cbf018745c9a8fa78ba2882c8a0c2ad9a19b5077589ef5e286c9c6baa9363f8968e4a33f7985e0713116e39d; 0x18165865e2b8e6ecfaef596669a49682924e59168e4520c171ebbf52e9d16878febe44144e5de3a48cb6e908172a8aafbb68a7b526a0fa1344dc653553e0d93cb9e; 0x1475efbbd842f88cf04ed8b07ac73cf89f3bb0355ecb69c98fac8f7982120cbb42af14a876d68f5e4267815fb3a68a3f36d8be9c8f5ce9dbb1e2bf66994e9606992; 0x1a82aafedbfce8c2f6ada8fb152d896e77d3dffa774389114229b5eb7a384418a34348068b649a1717f21bc0f3509a56d7e31fe36f451b5c957c82bd325eecbdb80; 0x1600c77acd480ebee131340e3c9acd49c553049402c5f4d64f503296cf9e661b2766bc62198186d86cdc4f2bb706f82efd2c95773539df1531d7d8ceda12639636d; 0x129005f528d420fce3381a8139f311c63861a813aed83d9940f09f44a65a3f66826c2c80cf19217ec319ef960c4acb1be5a78bdfb36d6d03bd36fe64db203adee4c; 0x162805a1273df5b5c7a76842b0b6ab283c23ac7edc3351310a6a7db74ab9924b1a7ccc5d87f7ed2093e913a08a47279abd43e1434e6e4b91ffa3f24286f4505aed2; 0x1b7de0a22ca41a669c9838a2187c677ab3712f3ba92b9f3f5afa5ee3aa8b2e74a55f6999e693f73dccc1912a4bf748906165a51502130d819c4f428100cc7742ba0; 0x1b0306c83c0635628a1aa4dbd5484fcdd244e3658b7eba177c2481a51870b3d2532643a747d84be8a664d448fc690cbdcd25d7ea276483e84ddbc5a76c76ffc4052; 0x1e7a2d0cfa982cdfe4b38f84ccfe11d972d1e89f544cfd51c9cb9968845b3dc7382a675ea34f89ca6c7622f3304bd59462a7c5c952289142f50b0db49cf92c4cbe2; 0x15ae2e08fb303873ee007b1c2ad5db87f51536a1269eea9a600d83fb841427e40b567cbf683c7ad3822eaff8bf4623f25e1697adef89a8270e71655caf159dc51ab; 0x1be3165e988ab0f770e296f350502f27d1eb8058e6344d7a2b19e1dc632a7a28ec12db60adbf95b5759a2b7486b0fa6a4d930bcc258b62c0fe376a26b202959d8af; 0x19344874b2dfec474b5fbc9d4dc511490c317f0541cb56ce98164c696d3a71085ea431a3f3f1828a3cc4486a1b5bfa892d175a0cef4a58c819242c60e7066844dea; 0x913a3d63321dbfddaaa13ac1b74433aa5a450b816026d5d33634d297259f23697549bb01da1e2522a76c66904fe20ac83231b7ce661f90a1a6b22abdad98b837f3; 0x19ca0afcaa0f98bd20f6fd9c43d9078011178a3a3639b2aefc30f121773bb327d4123955bdf841b2e1eef5b2847c2716304e631917403d559675cf697825f80719a; 0x1191814693e0ee02801ff25126c49814ab5044bfc065ed17ac6887ff8075404f9a377a53ad083eba4abb433f35182e0355b2d9a91964ec6c84c7e081b75d2666ce2; 0x8b74b9f17cce2ea70b9378cdb5335020da109cc9b212741a1e4aed0c16ced8675e71e99b0addb048c11c5e6ce519e2f74d0313a8638bf39ac7a0559f28ed57c535; 0x17058ba23a187bfb0295aa00f85dd118c34520fbbf39e5f1343532622fd9267e865d35f1c4c98ce4316ff8bb7d0755a171a9e9818dc089087a15c8fb15bb7bf4ac3; 0x639abde7d17178e7152d50ff250b40f732469d8c485ef865ce042174ff1a508104d892038664eb8ddeb76018af12df4c2119905295a8e70e412a3c6d6629a5840c; 0x31adff935485467b1d967fba37ca09123d883ac2e1cc2d43387c0dbe2ec02b47e817cd2dc6231edf9e9470d2c7fe43afead8deedf452fcdb115cec2634abbd9082; 0xe429265a581ebd0f92c26969c40c17df043e0c65671c813213215edf60a3264945733fbaecc21b861207ebb35fc63d70537f9435dd8c73fd98b2df9a64ee82bbc8; 0xf6d1ef8ca3d8ded81e5e2864e5ae0353f2e1de50dc25d738f23d203519100f9f9c8053edce4b63414db0c1649a7d14e3bd56c3afb3a5fffb6a5f03c58a6aaf914b; 0x1a05c3d339cea9f52e35908673bf56040e20cee7ee77ade501006b1269e9fa400e922a341adc0050e623643a2d4ac24700edabfe8f98fa492727e7d74beac971c1a; 0x12704d108d047c89c41acc365f494f48d434e472cab4c31a4a324af6163ded3b3c251d9cd38995ab2585b4b3ef8d2a0c78096c611039cb4b7f8a0ec4a2dc1419a35; 0x1ed5cc992e8901e257e0e054566d269bb9f1c9916d7387268b4ae05e67c0cefb84f796312371114231ddd22ff26ca69f9ca9797a336fdc9760062f40548c710f3ea; 0xfc673f2783579e00d5b1c184560193535736608da0c5867d93a43931a8302bada1dc2d779011e2af9cbb2f83bd5266ac6d4e11eee3702577b377a508791b6f9469; 0x352a79441f1f7b29a7896dbe703c4022c9e8126ac88caaaabdc25a1fa3b1f2428e795aaaff90e2c5cb195d9144e1e16f6ed90aac864a058722a73cad7c2859e9ef; 0x99dc5902a309c6976940b451f5097a9f116ddb61c73eaba93c93bbc496714db2327d5d5cc482ca57f549970ea6897a8c3a14b7b25305811acb995d787cb555f161; 0x90866d8db07871d77e3f5ace3ffecf5a7895310cd2cd2b6ff4e5ccaf9c0b25bed201365153f75a0f031613d7fc583e1c52262f2f0b9863fe41df5bf32eddc21485; 0xa8c79b690d9ff02a28acb4fcab66c686707015c1f8e80681440f5c9e1e68db41f11417f4f7f7a6ab42fb4bcc7993e80e957fc290fe1baadef2ff52d2e4eceb5d5d; 0x140acd58eba69d6947fac8e1d4685b53742687317b7f142cf59e3da5cdf9cb08396b9f3ee7973799641ee6be3da30f1434961d4c4187335f09c8043930222559b9a; 0x42e2cd971056ab0c62e70a827ac4cf700982d81e3aa1bdcd17aa0f25837a13fd9b492ac3583f36ab4927769651a2e33ecfd556d920a41381a47f448c142f4dd73d; 0x519aa43be408919f351f563a5511d04ad22e1b1bec2fbed2221dc4a2db74483448f38af928a4f4b4caa295fe3a669fa404f6725c42a7ab15c3b34b5c2c421db0ad; 0x1ab7963d7a3739e151c3aecf6e081f513f2150c17ffda5d6c241cb4126f934409075be09faa5e55bf6c52aadecf7d9e2c15f091aace02b06a636f728c15d2633e8d; 0x151eb93f24c1c611d66c6dbf441ffcbc0ffb0168f0bca111c9cdc1320ade170d467fc0dd559a11384c7c9334d17e39017da5e78574cdb9a7cd7233685f3ae39b48; 0x1c16aa69bd9b91864552ddd0f5cc2b78ea6d6bd2c3401097d2ea945cd8958cb5f6b481fb686571f607a4761dd8ef2fdeb01e19f67d5bba759a28a4c7c18749cbb6f; 0x1652a04155487f71d8375bcab407c7727c418f01d9502ede1a03ac7c3f5ce424a1febd1917732ae52d201995dc2441fdf11cd5ce3d97a473e5a20d41c3d0b65c3be; 0x1f1a9cf88ab05a2c20113c646b15c0f35a39900282b3ed406e7605731c09b874a1af8f7dfc13e89f5ab54945c7ffd660a0a5a4b6c8d1c2467b73f0515cfbfbd6555; 0x70c18106c95b2ddeeab94e81a99638b3633c59ccf7d2a934c0b8cacf009899c61f197610217bd502a58204a90388eb3f41c06a00c2bef4ad15bca404590bb7f65; 0x19b6951938e7bcab24f80ba86088fe88601365b1cd05a1fd4f46574fad9cc3ff4361dc54a75a286fcef8fcaa2e357350153f48fab959b10b8058eab3cc2920d321a; 0xf35a2c4aaeb440af91ca0bfb4a9e70370d3d0951b3ba9fd2dd6f0df7a56a7782a035f463273a1a3a5b540729a6cd2cada5d306f50b72598ca24fce4ad70be61db5; 0x17dea93cc9f578b12e1f28984f169da62c19bd46c605ffcd626924cb190ff35a20abfb1229030298c4a0b0b1c0799ab142510efff200c9edc62429f835c761b92cb; 0xfacb0325960d3303748c148e7fb0cedb5c6d9e9b99eec4c124e513d5f2aba4ae76e2075d15e8267d801c87335104d6041c77e348ca93e01d0c9a1edb03e796e7e9; 0x15d1db5728920ff380fd5528eb6ec7e21ce6e59c088e2ec0f5474c96ed2c5a3af645cf54da9dd4a5f1f0cda08b93227ed071aab3c18b3b95ad90fd22431dd24caa7; 0x19cb5289a1fd2c9b9c639bcbdc2bb94745e00a1eb06430391915d5edbcc1dccb4e5a5b15ad2bbd5ea03b8fc3e7155b8eccc6e1a893b58d12131d2690891339a3cc1; 0x6b5ada12b29df774174accfe7047b0fc7b8dec079f39e5bde6332c966ac8ee7e9f138e9dd49a2330ad33d1d71a83b5d670281ec562b297438465cf392e281e5d9f; 0x7ec314a7e8d7f2f329ad29d79510774318b961a22a94b5ec4bdb973a8f839e26ac45e9d117a565873d7ab106a9e3faf9ed370be457ffbd5196060b2f98a5da3d10; 0x42b522e1c692f3eb447c57fbf0c23d2498e1dbc9caaddf0233575b6eec602b63d565ad1b897f9cbf9e91acbcc0e212a2237cedc465f4fe71646a468fd80d690cfd; 0x1a58b6a68fc5eb51be22854b8bc47ec9990ce0e3835741ae42906010bdfa23d1580c4ebcc54ea66ac4565a342e5134c0cee84ec65b2769f85775bd3c839b353f076; 0x10cdeca81b3e37316036d66e25c04d44ea307ce17967f6e7b2911913733453ffd4b88ac832c5f180f7415e9f713992d90595b33d98130fe459b76ad35277619503b; 0xab9e20ae490a29db00c8f69f6d55bc50785a9bb4b3c2ff9e67f90ade8a4fcd3a0f862e81b8c59619f9daaad1d5222658a053110686a23f67dfc681ae135c4b508b; 0x1ee0360dae9226fb2d2b863e9bc51ec2e1704411800783667a3336c4a6700b0bba54375429aa1ea0dfb9ed91ce243c85863475db8ad5acad89c1f10b3d909cf765e; 0x1635151e48ec935e37886544fa37893aca75cde832df62284fb68ac4d2fdf5545340e099002badca817ab80a87cad984252474bdbe7037ca5aed2c141a0c7a5ba37; 0x15725c92ff112dc9d0b02294c6a309e4de420766963ee12269ba072fcf7d3c242010bee022ac36b5305a5b3e22c99a77d0c64496f4d6bafd71407667d8bdccdd01f; 0x3464c22b56cb337d676faf79406e5f39a8c2491ae7a05e5458a3101fb16cc71c7085c7f6bfe8c73e28bb8bebd195e8dcd1377ff26831c3667b43c09528be27667; 0x1c74cd058bb0a5661d80ddc5758924ac69dde0aa7e8a2e9fbfa5f249f26dfc728cb5a951e81faa725629f079074f63312c14ceffc50906d4aa1a3b1fdeccf6e4b94; 0x8951d68a86b2f4bc4d1e39e0601d1468639be417a2dd387809218b239b20539c696a189c0f42461f36814a56dc951b7788ca4a9fdc98724c0218fc89b31b7702e5; 0xa653180d7c471c2a82bc302b5bce39105c4a49ce605c3d705a36b7f3fc906b4f15c81bc98d7f8f1b2b2dcf455f82aa3acbf1fb6e307df8f909d3e8ec9434f19984; 0x12b24a2301af90219edfd7838bec6f77fe0980ce5dfd924781c413d943283350316bb17b4b7658b2a66a343106f9b869f4850a1cfdfff88727a424d323010ab527c; 0x24c464dc6b6e8e28920da35cfdaa8cc6d3ad29a96a07b68f40b406fbb7ce1e2cd5f2b7ac51d781b6b1537a7682607b1f6e63f517888ddfd6bec13eb658a7dd7332; 0x3215b54971aa6c3440c21c79335281c5fd099ab8742b82b741ec0689961770e41617bb89cf977716747a8bd79380f81e31228e16a172c6be92c7961e543b473e6; 0xf21cf6babb03d660d772918e6166c0905b129496d3197a04b167bc5306311e53adac49a6a636e1ba1f44fcbaa8d0a3c325c3cc52f2be9bee7bb27b27af58deec9; 0xac66e4e0183602017b7f3a9aa26f36a0dec3a3f627854160150cf85a30f4463ef28ab62546ca0081d8d18d35a60fded53b5723b03b0f928c9f22b6012804796a06; 0x150d84330ba5c4f101fa361436d3cc114c6b93d244908a4f8f18c25817920898d33ffaa70abf60cb810f992b37f170ca511683ca651b5a560bdc855eef4d4e73244; 0xfa7524fa03b32d33ff15d7a6c0dd9ac753796babae5a02e3002f013a0906a3530d23a9d904f34ac05e1edbc0ec1380bd5f759ebf3955f6449116b433613c6c515f; 0x3de3e10ce9ab29a22be68b31f96f073806f3a86c14e526438b003b01c8564493b7e60aa2cc052f097a8294bdf76860c11d6bd5a85153bbf3239bd831429264e883; 0x5f8443f164729713e21bca21e35e8ec75a94d9c12d3131f0695a54c83bc891b817968652de0063b74a64573dfb96446288c01b01aea6c2e25fcc1f801bd75ecbd8; 0xd57bbdc973dfedb6810912ca8a93426f391fdcf882d1afa9bbbf09a0a7f5d9a6b8e9e077d450712c50770a9d2e1ec34f32a452cfe82e99c5323300b545321fbe83; 0xe01f94920927aaf97cb58329e0cb8dcbe6f66c46099de3a5f2e57461eb97f3fb8ca326fdb5efe9dba748a0a153c19c8100f06caa825f9288294579c335b1ea3767; 0x1ec18fb3ea2866977b98f7588440b000ac0718951d6b605ec39fffb236ae1b670c708cf98d1d9e32ccb8d36db84fc31d3e1e2e0e04fc6715d43243a525b2ca7aa61; 0x4edd15d059d9a6ca0619e0b6823b6411d9a9a2e1a25b022fc863f27fdb9533e6a434b86d99ee7953742e110d6938ab87f118a4982868b0ae6c5f480ae746fcb2e; 0xb6e6746ee2e7ef004ce47210e93e948bb7cacfee55133d43b1921d43acc0b8d83562c4b86cd6fdfb2a52ff3719a01e9a2d7b277ec209aa14da82dd105b994924fc; 0x1070aeb1be1a09ba8f828adfae4c22a7c75660cffd6652b2d26b365c20e95e5e6a15f170520b34201bb1df422f03be9b35b2ffd05c0b82df4bbf98f8e8556222b7f; 0x144d2f2062d83fa53f46ce4201eb7d3b103709363a72169ba9ccc0820374ed73c77872602e7d5bc2c2c2145115118f8d6d30fb982218c08406a588ff7aeee439e9; 0x119580df6a8095e3a66cd0ad5eb2a9857613a8651bcdbd9135eeadb7fd57c01c6c9dd50c2d6afbe72b82828d8b5bade93459ab4c68dbb52b647ab862c1bb3f9814a; 0x46178bce325e1d0251a8dab77b67c8d1bcdeec96c111889d387f54fa9c80910402b988d3a14227c580927975c3c60c5c520be616cc19e89383ac5ae133a2d1e02e; 0x15095db134e55bcfc46a2952ada7abe09f181de599b55669d10e41e43aacb2cf035cfd86c96db66b1d8a4ae968fa86ddc8e0e2e48261132e2a5c3082c9a4375424b; 0xb1d5295c5a00432febabc5706a86fbadced5160f13b46636abc62e2e72efa5c8789d712e9fd58ea99f1d34f636979cd4b20be862fe3388ca2dfee78264210d3d3; 0x13ee3b0da0da63403a2678231d1559f2add5ec70a2358a0b69e5c4dd309bf7a14cde4365c8d4e8676b5bff2d21121750f68f2ef41cb57b9974a329fc05b514a1df8; 0x15cd17568a262874ab8a42cc29ecc0caed7b32fd81105b0ce2b9d2b653ae213df5ca62b8453c8ead4fe413acf8f2cef92a4292a21aa6f14d4916f3d142d701a1c79; 0xa71f4f4adc5e48e9a38dd39e2d3ffcd508fd34ef45997211e2a013dbb13addbc15642126c8f3913b9dc09e4e439e00355371c5970c9b58dad1aded6fec62d162af; 0x1ffe26ba595a2a319e1c5cb141ad770dd90943632d1ab2a7753a326aa4b91b2a37ed7e07b112b7fce4bcca3a3a160c5c26182d9cf5ee5193ee1b771fa2be15700e7; 0x1d82f74028c9fdf0ca75117376f5a88a623ff17236bb2c2005787c0d1a631fe42c83af98c3d9b46b099cba9aa3e9a1db89ee39241ed21a46e20cabd8acd29fa5b65; 0x1640a2c867e77139b9aef176d5183d2c88d09784144f3f4df799d4a934797f520d4dabcb44766cc8b1dd54f9a067ac4318da16629209d0858af4fcbf2796a432d63; 0x191a7075750809de830f545f9e3dd580a71313ebc4ea72b85c9f4707b2385276236dbb434397e57675ba822b48c0520d303283a7b1d8b44bb8ce92e73a935c92f2f; 0xac361dd5ab0ee6f8e65ec070e75aefedd7f0e0c89f0eb8a2022c539dee2ea67f0e63aac22ebc507c860790e268cdd11d9b9c2f03ba17445ffc25c587d944f45344; 0x11bf960f9d0543ed6abccfea38ff67f53f4325182026a88c67bad9951cc2ede664026787ceeacea75728fc18a313d12174045b838a366f3a556ea5961376562b086; 0x1d0ec2937c2da2dd802a24015584bf8a5d1e9be3f562b981e4a9f3c6ed6794cbc927fb9254b15ec7302e44036ca995238f08802729408014c81a936d51c651bf6e0; 0x6052f278ef0e7bb1b8eb01b08ccb2efef5eb6dd0d420788c030b1d9f84de2c91c6277494e572d64736537e22fa2d68c611858e72f84951cc43e72c5889118eac35; 0xe76d457a719006ccf7e508c4b4c9934c370ce4083931c149389950883c05cd76056b6378f9c53d4f54918ba8f8d3e0da05cc588dd60ffdbe9024538dd7832ff376; 0x11ff50ca717e712e45a0a618785994cd730bc68b9f194e79e579dc35607b5a1b16da05723427156bdfe73ce6fcc5dcde49cfb5d590f32926761e1a3d3c2108bcb99; 0x3da30fa83db8d2191413d4e9795697e173dbc11c69d0ba8b63a7feeea5d40ef90800548e7834f09c6224251b25cd6295429b0c7f0d086faf3ad640e11cbceeaab9; 0x19c977e2ffbcc0d40c562b7cc0e72ee106ca5405e6ab8300ee4450f1949c1ba19fc80735c1770f8081fba35eea6273600f2e5ee5f6679447dd80a0439324237c829; 0x12d4057fcb414cc0c7d88eff1e3048c6b75eb9f4d726e74101ca6d6c8acf82fe449ea052f8aea0be829bd37fea00cdb214cb081ce0256c6c8ba78e5f74d3b01708b; 0x1b9dc353bfd62304c03c2f708e1f824531c5a40f3150e7edd899770d4423ce723fbbdcb7d4012ac6efff86c4accff33e61d10de3d92041bd5ff00a18f8f4c34aea8; 0x4fc51c6f86439f070b9022ee883ae4b769997aa6da82028a9e224a93e8e5a60bd73db0a97a15959eae355391850509c10c6be17b72ccde72d66dad5e87e6fe452b; 0x1c3ba686a8e6e96e0eda6e36bf0ed9cbeae5c481fd7fcecb779c19964ef487a27b4337679ce4d1c127fb385c2a185e9f4fbf021a2957d9add492081135e9cbb031a; 0x1e2b0d30954e9cbef273cac73bef5887f53f4f5ec319099c97ba42bb67c26663fc2464f1ad9ad0d07b93a0e0240174050ffab5555cc89f32b35fac9207e77dc6e25; 0x1028a2066719b051cdbd56b42a1b777bc75769f3951b9893ce0af38b7f06b6dd614b7a16c93260b59505eb193b0b798d785a872c389e99b74d6f92742907e651569; 0x554264bfca20b8df5e607e8fc48e46fc6fb428c2bcd364b594a29815fccbe162b3ff277055657d73cb21fe2a2e7bfb766f38ff56882f31d21f26f1cdf46f166614; 0x1067fa7e8f2e0ca3692faab47235adba0d7f50ca6d6e80078044e2cc252e3de5eb657a7eae1b6fab73b5e17e21044db1b11edf66f1d972b1b05cfe5c98756a717ec; 0x1ffffffffffffffffffffffffffffffffffffffffffffffffffffffffffffffffdfffffffffffffffffffffffffffffffffffffffffffffffffffffffffffffffff; 0x1ffffffffffffffffffffffffffffffffffffffffffffffffffffffffffffffffffffffffffffffffffffffffffffffffffffffffffffffffffffffffffffffffff]%positive.
Lemma prime_521 : prime (2 ^ 521 - 1).
Proof.
  change (2 ^ 521 - 1) with (Z.pos 6864797660130609714981900799081393217269435300143305409394463459185543183397656052122559640661454554977296311391480858037121987999716643812574028291115057151). apply (lucas_lehmer 521 _ ll_521); [lia | reflexivity | reflexivity | vm_cast_no_check (eq_refl true)].
Qed.
Definition ll_607 : list positive :=
  [0xe; 0xc2; 0x9302; 0x546b4c02; 0x1bd696d9f03d3002; 0x306f7b285eead7d8cc88407a9f4c002; 0x929febb2bda322bf2b38c93432476ef7e6a06ce335de155599f9d37d30002; 0x53faccbe8157493cfbe60a7f5e87c9d79240a3e132d5cb70263b89dc60bb02e99911b0527acfe8c82b3082ea19f850ea776d9b1220f460d65ddf4c0002; 0x2c2aff0752374ead5d75f703f16dd49eee538fb3811dbf724f027912031b8920bf89798a058d88339a25187b322dc7a498a97ebb7f22b314438438a7bc3de8c68cca71dbf948ef20a4c1c8a4; 0x75625c6eaf241724b5ef67a2696f49098caf932d9885320a5a423b39eb52e8f52ee60453ea5fae36933c5ddc26eb9494bec9a039032a10ab8ca349d99e7dba16e3ad0866e7afa3a6b2582df0; 0xbe294628cc016b34fa3f864bfd7f0a5868a9dbc11bfb0575434d9d006270cf7801622010676c1fc1ec2f5d456c32e9311caeaf877099a130b0f5e8ae47ffddda2236b66616d4709b54e7b25; 0x58c186954e08f8303273e55136fe152929b8871a5de1e1009bf0c63b7b337063432edb3eae1a8ba7640015cff763451f37a978c4bf26c36993e6dd1b98174b9a6ed943d594b306d3ba322d97; 0x5d8c96716126534d96e386e5a2510fb956ebda724340f68b5a622e1bddd9b56c4edac725a71c8fcebd2af5657b2a3ef69ff08cec57033e5d681d7bab2c70e75c176a15a254f676328b331abd; 0x69b254ff6634a6a507f71b13d2383dbe0aff886f3dbbf3e57cc45e51c7fb75d3ea896a3ff9c858930bb6b5afcb7120389a6c00a1265f116e2bf976512c68c9acd0ad1caa2aa529ea69fa4420; 0x49c824fe06d9169134e8231d72c9b919ec4fba34314b0e70c121dd7db58c94a2536956146f601b8f67f347f5250f2e71041e9953d6267b6ecf200d563ed06f54b8cf195f6ffafaeb771093b8; 0x34b88f63a1952d34e7ee6cac1be37787fe7af02ff19a36563b9edc001fdcaa5981b04df2e31f59c5870d206484ef37fe765f306321d9a28cb95a2d469bc1326bf2b82054bf87ad910d6fa8ec; 0x55c84146f6299f9c4aa26012772c18060718705345798c8915c3e8e8cb2d90a7e422bb51b1579024ac88f65b9f293edaff640b48b4fdfdf391018d6865bca47e63412687345a8ea97e8eedb0; 0x2d182ddf0e88c4da9938a3375b585ce94f264ef5f469379311d4d8d733f1a6ac194cb6ef916c0862be102b8f887863e817ee07262db72cf71ef31ec3e363e3dbda0dea5d8277072e9a3f2518; 0x228adcf46feab0b42d938d5055790fbc9e695cd2f9e1eb0587f64e0f481a188b8c710c0f8cd9aa0c47a4dae9ac04aff4b2f8e09c0a4735ce01f89d035f4833a545fc1d4367289078445649a2; 0x28646f951c6918eb151cfeff8dd4b7b56874f83e78ab11aeadafb2dbc8f14a38eeea4456735c4c00669ab19dff274289f526c22706f16171d1b7f7c56c85c22d98e7b7962fc614b0fdcdf50c; 0x4e06cc622ebc00bf23e47adf5a9f37cbb0bd47566ddb918a113ebe262f39a697831dfe69d1c5fac661461c82f0ff10428117234f5c60c382547debaba5bb3a792b797013e8699c90ab61dff2; 0x638d8fd86392216f3bb190d2383b67e504990266a6247135204d989a434ce87cc1f4239a6c3d790dbabf8ff915e5ce79d548f76520d22dc9d29396dcbd2081932fca3f2582f33c172c5a09dc; 0x4da87b28dcb52acb47d9367046022798b40a49e8bc18c5c10be2b4ec7dab7d4a4729415e5ad89b1bf77bb30f31ab2aceffdec45f19dad6113f51a9e624b3d4a5a7acdac4333c3d5d735c6edb; 0x1afb6677e74510f7cf64e2d9af34de364f059f43707786f6b8d15d4e1979d7f535112bff8cbd5bbd03cb4a3990a5053c5206912110168d7ec3f51da06c4c80351070cca41234c9931825a47d; 0x1c7b97a49865f1d01090edc30b748e28c83bbb757e1bd0a52ee8700d0874d3a473ae4cbb294ed640716aa5ea92f28d7f33f28736e992e5d8aa6ae7cc0ad518544ea829ddca3f51424598a2c8; 0x30edd1b2e3b79e3451e810a1a72f64da6ea0e1b9fedd4984f45ff22c8a77772f9b515ab0011c793e334a40b77a701f4cd8c164d16b5cd122072bb53a858d3790bbfa457be5bcccdef9467a12; 0x112770331e7b98f09fc1b43efcf6696d0f3be446a148c23de29929ff37b0e54f8b77f3603eb9195c5486f6e8e54b60c4d95ff121cfb3926878570ce438f61998e14a2f620ae4f121d9c5dee0; 0x6718baaf1e87556121f9eb0289db7a365f838b076e552744f4f26349108b6ddd44a40baa66dc374f32d36d5a7f4a36ed9831af6a07875cfcf98c85c81132e74d1a0092a2d9cdd8504173ba88; 0x41946c9f01da48eacb788630a0bea5f64fcd34996cb0679b021d4f8f9732f04b530745ed7017a6db1553e3d5933affd06b81316a7d7579b633d63c4951212d7c851190be1a910a22070813ec; 0x1030931d50fca2f68c9c42ba5bd9782681178b08b8f98cda054db7ea71ea299f6d521e9c80c8807ea3a7628a59c1246ebf9aa0bf332386f6aa2f410977d318a25b6f4c7368991b34ab8287ae; 0x4c06ca651e1d62e07838c769b1061c33f4b0490e88ceab3ce9348b51ac9e6981dae1a76e940216f9f04e3b2e61a18738c818d1bebfeb2b510f2019eebff4aca4d1ceba8a7511b63fa4597e99; 0x3b6da852129b66b7cb68a77e470757018d5797e846bf9de58fa2ed6ebf995b375910cb49124897e42b6cfc59d23af719cf095e3d352b7019668254d98f94dde62ed691573186d439615b81ed; 0x4a7ac4266a127dc311a980425caba11b0830d760090ad6cfae1afcf7463edc17bab530b789efb75a553e1e6c075287a756b363b45c85c294059b67181c12155daa632d9e9649655afc92a24d; 0x422f9ca78c01c40340922b6fbbae3b62ac3d62a9aca82dc87244eeac9bbfb4848fc6fd404eecf45770d7bce3b5c5e61afc538c572c0ed5e21a271f9b4067ee0665e070570011aade6a29dccf; 0x6cf8b7ecc9bbb9c6ed312c3ff0c79ef30633a787671eee121dcd7c90f6f4737d22fb22e081c229e89b0a699156559d4691e61d9fc0bcd1b5c29efbe076f903deb1a393bcd4fac29c1b91c0a6; 0x15993324df0e5c54a927ebfea8eb5f90e7266dc68d4b30ae33e91f5183fe68fb5a41c06a7584493ad755239150c17aa916ea74eeb89218228f810d5ac949dc0d0336ba12d12c27859f093bb4; 0x2dcd0d9364548f91c4daf0a98a2cb680bcab1c379694129e13a434e3fec4ecb649b7825fe1f542c4ced4792c3a3bc58cfd63583e2e4171f2a13b9f9c800f3b778e0abb1354d31b833a747557; 0x2832b0b1347672927fceff0b31857473bc25ea4c6854ad82d15dab4dc1d2f7eb95414c605df7c679fe071058515511777176c4f36ab59dba14bab9090bb9833d084c16133f7598c1ad38bc9c; 0x2da2a55c833639e3a5c14a6d9ce63016aa9aeb7ed1dfea9f5ec392acc156f0e3f1318a26d37fdb91918857c33c8b8a4c5f71d8a39e0150641bbb17211d49beb356688c5ce8da79278e96bb3d; 0x10e2ffb0a1ba42695798b1be00d28ca755057abf4f68d165a9db4081822415447be7fce5f9fbbfb3fe190a7ec3fe1bc4e566282ef020795237c5d2508ba528220711a6cfc1e9835a0074f9d2; 0x16ea9e9ea5e87b2be3cd2e603deec9b6889c9f01ca56f2f81d3c85bf74254755875b68c8172136843d4f16bbbec9bff4588ad0ee9ce4d6379e7098409d8990d524ee0e4b9997663d1cfbf16d; 0x46086526da351e341b5996fbaaf30200deb6e7077042e041d39f17a6d6fd95b121cd615fb62d8d544229f8a93cfdcd52588670f100598203614f011c0dea3dfe26782cf84938f97ed9ea600e; 0xa73f6b177d9a246e0a99e85c90029254ce714fb7c580d92238d2c588fd0474370483b0db510fa7aece5e7aa73d540237513955eebf3c42c79407ebe6ae6c1d39e23b6ff0d0bba0df70eca9c; 0x2d7f9fd099434a170b5836cad3e4324c71266f6c317096b4f8b1dfb547d67e4886692f456877af63f2e68d50b83a44e864343d694a20e19ec601ccbc34b59176acca8295fdc98017d65fba4d; 0x24501fdfdb369e2192d513ab46d68d48f693c1ebe387e6e29cd68db348d28c76fd13833946282c9c3412dd9d42b7cc5eab85aca2369bc1f89fc62dac5df89cbb38c304bcbf72fb11cc5ac3de; 0x75106dc5a033219c8499b6bcdd2cc8dd64588145c98ef0d725ea0f88ca87ebd8a241244c80b94bf4b9496b915b1427580c2d324b7719f16b66c193eb4da15b9216b7d068b419c52423d0f30c; 0x87fa96e771e3bfef94ce18f43de3237cf225f6797c32e2dd0ef3493ee08522bdf1f1969c724fe2ec419d6879c75ac95c9f7b9b302f1fc91fc820940aaca01833af4fbb889f7ede5206eaa09; 0x2477199296c701f9defed0362029b76a97d9dcc2024c255f0f24e99672f408741721d80e083609b8eb60857f8a8d4aa58d55fcc404f3210b7969f69de7ea2b3602291395071d18a610c00a01; 0x239c38866992f1efccdc9890568c3b8bd60b0bc240504baeb6040d526a990d5d63dd0aa52adf4f933cbda1c11cc83457f30c6d4811ad724370113596f534d0db07e13fae7b3536efd37d63d8; 0x31ce4419957deca6bbcff5e8691cda0dce8c1f8058f461c1939310f96e07e032e44b536df5bcc7af9632cb3176bf1b0ea9238f87598f1255b402ba6d118bdcc3d9fa0742c67eef36dfec5a80; 0x6cd1b97056e708f0cfe5f8367a142d596701a184fd59f2c26ee546cfe58bfbd90ec3a8e8141e9e6ab9645f811879476ec08764b2c918318a7b1c92100d3d4d92bfc645a7c191e7635df3ea9b; 0x19d53477af56644723e993d44f29726c763269c14923de03eb89582866c1a8ff734f32d81f1a0ffe6f5b74f91f3f515be0cb69c2a3357acfea95d72a2efbeb43d281ac2f63bdbf5306709ac; 0x448d2d4f9c4876f8a193e3690806f65ed7e96a83b01d4b70b1b616ea3c603d32080267ec55b66ba2c5f95fe900fd67a18819b253a10408758f28be3a9c6a3c7942d5458a2bfe24be45ae8ca; 0x1088b4bb467d83c47a194baf93972c193b7d4358630658d8cc58291f40c049810d99022534b6bbe10f6da3c0c15b716cb54efea5638100dfd177c89e773b86463b8d7202d2930daadfe9dcf8; 0x7adb5b8a0ff8f7e72ee2912e396cb9b9cbaaef0aa9cec65022fd5e89135408ccb8d8f631bc3f6938f3c7dcb6777bd9360c0e189b98b85d9e56bb5dc7b471f110b6b0d906f538ed26161eee3f; 0x51441c05bb938cbb553efd999a784fd6f3409aedb02d63e349ca72a80dfc04e95c5cd54876f44a61edaf04df396522c2a4af9260d822ad0ee187a5b8838762ea5ea282655066106a2cc0a069; 0x3aa56dc27da0980ef26d7b5da77fe834d7446a51e3533c59e08e8ef06541c88ae00361bf630c4bfa8d260d14fdc5646f871743644d6c20a8eb3a79bdcc69e39ec003496230a583650301a000; 0x36d13ba6f8d9e8650da6d53380d81384a1e35326d00c335997ef9730366a97503c7b318a3d6478b7129c17caa8bb52d70ff103636b381665e4760eb3f100afd149439707716395154de89f49; 0x1c04bb5ff32ab9f695fda0f783d1a85f6584e41f31e2807a1ff3609146f1f2d28350f315aa50025955183d8d0701ecb1c29bebcf59a292afa51d68e65e442add0f8f8e01be5ae16854fa2a88; 0x75fdfee56972d7d79138c5c22aef49c26c2b5534a3722bd55832af9af32a68c16cc825965df54d20125878eaa152e255457d5bd45e817ee00e29b27c830dcb9ce28b9b1561f33352e1c0399c; 0x7e09b99e7799ca7b68009d280a3830724fa7b46f7ba7979b9780f6afd9d82bbabead36e6070c448aa33d8db58b07085d184ef0eab9401fa9522e58049be777cf9a7232653010371e201d2ff; 0x1e024411639f142aa4e3beab1b0e007f450b4e8ed56e6926d9767334989baffb371bad623c8ea40947ba73dbd296f100cae25a93d8c38b16978a26a97d0eeaa0efbddf25effb1a018baeeab8; 0x631c57d95339790cb08d2fea4e38caef5e899420a01a34ea08f36e8f3a316b25233ccc4f2154adcb053b97deea171426aa117a81182b8ecc083cce2d909b7455c46d965932f2c38b15615558; 0x9f3db5c623363f991563bbec228f928fd893a25dd74f4c0a2f5f2b46b4879a97dcab1623ded74834cc80b8e5a6cf5ab49839cdc1dddd2397a028d3b1c16b9e28e3d4305e1251877aa278637; 0x6f66cfe7ab8e1b94386905bad8f5efac20fbeeded727dbd543dad98f34d50b48280cdaed0a8a7de7526ddef89b6bfaf9ba787113799e7cbccba33f34484ab651032bbdb6d17268af86716c6c; 0x909aad420ecdbf64162583f44d889405c3e5ec2f1aacb6fa94f05470e3d324f720d6849b871bf26437a11c285208327e01310b7ca58a7f1e744a5bbd3575a59fc434d65e32e9b03ed5424b1; 0x6d94b56b8791dafd20fb4d167b7f5066809f21277fbe97dab197a56a5559c40fbd49593973502d880d49f1db640fb9dc064846b46010160096edb206b7c50b86b46ac5a60b04ae7c3948590f; 0x45a447d145376dbd3959db9478d39c66f21fd1bd5b954e9f7eaf273cb8ddc897d616e150eb9e62dcb9d404a18d2f959f17652b68e16e2b41643639c1d15e316790f970c0d951c25c889de764; 0x541b58ca9437dce494b8032e9876edb7e668883551329d845dd03441f2d3c0f67ed63cb7a1986ad72214bae45c1d5db68b6ca5c3f87e633d1e897a0b3a4896a6c5f8aecfc647ae58864898da; 0x27e0946721cac5d229c2e56f6e7a1afdf0fc6bc171dc29f0eaf369fbc75bf0b111126c8b2fb4e4d507db5b32aba0ebd45aad6f883a70969b396137573a7a8fa4848ccd286f217cb32ed0ab95; 0xe235b0bdef0afe08d472d9f6ef6a463cca15ea6f3debc3a8b5f1665fe0bed3c9b369c3ab1fa4dc3daf453430a808496d9a6282a5af977a1c2fca3250162a5bffcbcdff49183e81efd36becc; 0x3dece9417567689503f831f820def7033e8e7a99675ca31dcdba07b5d23a216d090da3b6cb8884cc4198479c9472713ea6d7ee2784d12668978d658bc24bf7b8fe6743709c719e1774a9fecb; 0xa3bda1b41bf49936672cd9cdf0819ca83b1c64f3a8db9434b5abb46fb48acf332537aa5bbee03635d3af49395271b6fac164a0655950467041f85eab14178941a94e14c964671940a6c8bf6; 0x56ad902f3da1f23b9165edc79a60d052e1d1c61e5fdfd688b4b3ac350bc204bc22f75979b720e5fa49718457dcce487590d516b1b68d12ace7ca3a0feec2072b150fe66cf1468ff9e4e0d72d; 0x6f5aaffd1a14790cf98a8b5a36a5d2d6b210bd6597eea44785926f9b2e6014c7d662ff21d7caf4e842eafaedb875d158b67eaa0b9fe85e6606935189a7fd0f35754ac24142888e341337e067; 0x42a9051cbdfbf7bf514b5d0d81992198f2447aebc8301abfd70f9d214a30d748171ed290ed72adff238a953eeade3f4d31019597a736362b6b2ad625d5b0095a682303db382f87e6962362bf; 0x52fecdae26fb5e80c8925be102112d6791d74619251394f66a446a8306fd4db89718025dd9803bf93e0560603c4ff674fbcf67aa4c4215ffa8229f9b1b228b8861f705377670e1b304d0acea; 0x25ef2631b68bf70e95e38281fb9bbffdf0e340a35ef5e25fbd0a79224d3a39ec54ff55b2b40da56fbf2b122a7b45c664ad296261bc532151a693e157e4ca853f108ee8752019292511bb2b7a; 0x3e6a3a867e21defa02c4cd8d0edd9f749ea86f316d50475d0bfc3dfb6a2ca2b13b1c0d347ed9737696872a1bc0ec31c0442da2c513bdeedfa07814669d171be95cb2e780db789a61797898e3; 0x5abb35eab88d299a38d52bab17a67166726be0f10c0f15f455f07bb48ba096b577a74566ea9163a3134890b66413a03a6d5be17654c8c7f2144557bc25285284e69638dd94cbf705f4ba8c36; 0x2ac8778be37d07fa69be0de862be3a1952f18ace646f2a0948916c9b46e6cd3ace64a3c669e8975835635afe53d7dee0d8b73e47988520f49e02e8cf0199548579087c0f74719dc3ef375e4b; 0x7a0f59211c43fa533276bdc4b9064669c05387221172b6b21533cb0114c274c20224192e01b7b90081f93f43c8210375c5173b21a11796a7c4bc905d8b62c6a9cf853aea6d3c6f1b8f2251c4; 0x54cc080f18d4a39b376e81f734b693b310f9e6ac2ae915a6eb4a45e2350e5d8d64dbcdca11d531cdd553e6e173fa16f93f6f9653bd7f27cec1e309453db786cd3be34c4b60df625985155d69; 0x1f0e00c317dfab5872b9b3da26148157a062a40e169a2fea7b374a55c475982ca5b06d2eec1789fccdd933a05d6f2dab65ef2083c7da155a009954f16c3a0d1a3ef01d78ca8bbba41f4c3f88; 0x1ddabc06936c3e41f93426718809e5d09a5fdc03b95159b50f7131d5d91aa9712c1e6fe8108eaebd956ad07e4d807bbdfaec25a4d278efd013bd2c414b04d9bfb985532c6cf0a5c6f78c5343; 0x5f72b9281c6e731ce05f13ed8258ce71be51bd0478b4644e9f8dc5b31347f1fd1863988853bed904412a8668990a113dbc25a6e5fc344a9d7b3101ab66584cbe588fff52fc06e87ccf96894c; 0x6fec08369c176cfa9b40b92728fe9f52e6af7d22d318e179a2a2d22650babfc5e968e1f2c1f49518d1a36f69aeb190676ac1ec571dd08ab4c11b1491cccbc4a397eae88e28903b388c1dca9f; 0x476f87cf4335299ece5c1c22ce26fbfff7af3a3917fb31f4ad7820a9635c1e988818b9dcc4c09e55c0d9a3d00d5dcb3ea93129f75bc83fa5471741fe05165f5c8793c79fc22ea12142c18e8e; 0x2405533fd91110abe2843b24cb3cad8627ef8bc545e79a4b1eea83337e1c3928f7e5aeabbcd9ef0b815b9acc11251d278c1b4cde279b88e9a0b6dd087e34f82c6fcd7ca36526dbe10af4c4c; 0x707a991d55760dcd21538b70060d87431a60475caf9784eefc184fded116471f15e4bb3d9717506c31fb13d4218e6d795e9d04f555258dff58b4e82c3385d784a615b8ef00596c5bddf17ec6; 0x20fe816b2104783c00e6a955c5653d8141d4de2cb5f050ce4f9ddf52c1b12e767f036c0bc03c7208cefdc0163b185fc7e3cda42acfe6a247396ef1fd938cc5178da383eb17f76b5aef27f6b; 0x6e1e62420c701677a3c027632c4158a59b0d36f2178db364eff2a8d8a0f0b3730b8edea6a9327982eca47fcbb9ff8e4d99b45d0fd283893b9bbdca0c3b40ff20182f3f070262f7e21242643a; 0xfdd6167106702c8f53f2aaf833564b635376acd60c081d12d3f31245735b9d503d029b7a949e57406d0b219ceab2bb4f314a8dd729f1c7b566839ace7e2b342ea3c609fe9e0e517d44394f1; 0x56adb9e98ae5526aaf4e5ef10326f3590a65763bcf8e0bb345dcdf05ccc4a41b91597fada4eb932f97a1018366065310e8d414a1a68117f99265f1aca529fbbe05e6e51a7f126d787680f0a4; 0x160be1fb3cc73c68549bf3ef5e7201fbb56144295c2d2a2f496946870cd4166bee89782448d63723816ee253b652555a9560b3297aa8fbd632802d317ce34bb4ae00f5e460fc7e4023f4a28b; 0x72d4a5502fa9f4f06ccf1390584effd83998b5d0d6c233fc4d90719028a7c53d8b1cf5eee0ea1f9b1cd6194b547875e2cccefaed42cb17657f1b0d54f05df27a0275edfccf8005949eb3252b; 0x4bea0359fa0590819df32d30f6e9a0a8a632e566334296e85fce5b3663cac1ac3b0e4bd567da807108c3fea299ca7cce5c6eaf16a6c6d87daad77e616babf5912e4f3799a9219b286d7fe460; 0x445f5ed6cd3a407d44df30846b1dae17420a540c830402c72c8c788447faa0342dcfd9f7777c7cf301d8f1064c88de172868a8c360999a568380fa53b68b434b0d76cf0c1d9f53a30622cdbc; 0x50194a256cd4997247eb30faff34ba1506c830ecee413b7c6e662bb69c37b4c8d94e289c5f2c1bbda131e44fd0b76566328af7071b9743933f5139d37dae2d0d6c9bde575e090f52357106a2; 0x4f3056673c1a2a9398159ff472288b76960b4aa00bd139660d14e744d73982aed047054a9386ebaddfe03495a72f9992b4c52acf3ed6a1e6c5bcaef85e662fff016610fb9b0ebdd6dafa1914; 0x7f37aa72713ad4b52ac1eb2495e2611678bb91c53abddfca60a21005a2b03960a52f65230e3e30ceeee5985d13d13104a36a3d26de4a815ea05f870a35d243589bf290b0564208c0928eb5c4; 0x6fa2e5d672c56abe10a69e3ce784020ec5587622ba267e49fab754af50e36d5f1cfd3fab23b6e3d7e4404ad22e6ed8cc8af3dee579811eb13708dbdf30ccee9762f59f2d2ed15d715f79c317; 0x11bd42529b0a912e7817c9cb8e063d919e88466ec59809dbfdf8853d5df500ab64dd8f54b26d0ee449db02c203f12a1bb427ca983f5878ae775dc0bb509b16a3cdd8dd888791cc1d4b09fddc; 0x7329eaff33e9bc8628d11823b76cc2f7afe38fc17e36d2ab82c6ae261d5a5a2c25ef1b7774f194330baa221aa0882d2551cef0bf7f8b51d2aa6d8e4a0ea323f14dd0fdef9be7101c72ce73cb; 0x39cf10aaebef124a42e65623e5c3eb24553dd32ad310f76593a13b28d3f7cdc0172cd25592f0502babe3b5048a0ef1bed00e24e32c8ae5443ad3e229228a4ab2bf7e999ae08da483177f6483; 0xe94556cb1647f31ac4df58de0023cecd86232e30a5aabf0f4810bc5e2ea4aaebb745968b88a45a6200a9f11d0673e0448a494b67537b36a7fb760d0f890da8b355471162d1bbabeff88f693; 0x24f90fbecf2f8e1220b1bcefd0757bf34a1d2f08e7b1276a9b23aa3a278e59ebde8ea936fea34158f0c5b43b894a96568c4d99d8f7ae4ff0312e79bffcbba564dc2bf2db2b3603f1ca10c3b0; 0x173a2e291902edb87263366bc43d1e6db1635cb8023d2a6f31031d96a63a50f8b0fc39acc94f306ba7caa2524b3234ec5f8be63eff0a59a7ad5ae82da5459f891b3d892ee9cfd0c35bda48ea; 0x3e46955f0ca477021b20a46b8419ad30669271e6d7ef97140ace684fdbc7273e1a450c13e5cde8f9f145d59fca9d16cb868a8dff1e94edc550ba8ef34885f87acf42826ece29be6a6fdce2e8; 0x7725e133eb8afb89036908ed1a54fbff8733c74f3bca72f935a4bd87f57d691dc419f24a2188ae6971c93c4707eb7801ff3fdb1f58ddbd56ccfc3ec079a5d96f17c8c10318336d41c525f087; 0x19bb6d80dbfa098fc3f6fd89180dad0808dc9ce8842b227e43a8a582e444ccd74da4b4bd938f63cb37760fde90beee5498c86e2c37059d40b04ccc31124f29d18536cb9ee764f2a3fb2521a0; 0x3a2c1b46173a69ff8652fc5d579dd1fd6787bd4403616a6d50e3a4988e1421916cbda6ae0d84f6e6b1e3d7bf38225084f9d1e4f85a63ef321528c5683800b9f7e5ece9c60e1f9ffc82b6fced; 0x4b2251f9634b9a8d727c99526e71d2eb7bc1bc33dcf6e287a823aa0c8980776768dbc844bf24aa482638a910b6b552efb9754e6f1c2238a123be98d82ae4edc8500131a2dcdd044674eb0700; 0x1f0a8bdbc086afd0bca11a4764ce91245c7142bdccbdf6a6d80dcc6885fb4c81788cba3b3395f60e25dffc8879205f8592224aab268c9bc4153eb20c629eb6f43f9d5aa8a2ed30f705edf4b6; 0x2312384891f5862afd59371d3308aafd5d086e183a137880870ef9f9c8aef0e161df92594b5dac301976f22a893ef01c780b6ef511100f088b8960df0b5f77df3f6699e88e9eaaca4c866270; 0x7b7319d9f8510a03c92acc2b509d1ab396374f4d58eaf60850ac072aa76a4c273efff58dd141c33ad3f5393b0631d5b4486dc46d7eb4418dca27c0820f55127c4efed35c973448439f38f930; 0x6886e03f46ae821a2083819fa30dcbbb706fba88473886a8d83fb02baa7c0f3fa707461272cff8d23c28043ccc9a6641dcd3cec671bd040c1f68250920f1605075ba570910559fc357407e8c; 0xc1286fba7df18472d7853e5efd71fc34625722f557af3c27c929b6016124ae8f08f0f72ecebebb68ce5521954296471bda65057664f445535e4982d4300ae8afa71fb6dd65cebcc9b265c43; 0x2d2cbb98a1357af392dbbfcd432c94f854473e0a492ed992d5dc88493ab52752d17b7e30b75650b7e6a382eb25f3e675c4023eb53c5325fc76d801340efb407e04e459c5f01ff1e735432669; 0x73b237d8a9a82fd836a6a6dbf11fa87f84a14a0b4f5495a2ec1ac7b3b7e5cc1842779e64b1380a9226b8cc8e71ed71fc0594d62c2770908dcb73b02b785435f834486fd1dd4c5a79002b9843; 0xefbfec69db3c03444084e0a6f3834870c38cabe5eda3d5f05947ab7f7ed758d895c72aec4be3cceec574c015444d8389197b3163ef0ab44183ac2903a094343c7507de54d0fdc18a732c8ee; 0x327c1b614391c0b83ca9aba96096018bd264971441491459bafb93327e5e6a272b6e746ab63358cd988602a059e2cd7147f39f38ad9a9e236ec5a2332f6b1201a17d70b8f8a9932adfb5f187; 0x22733f4ddffe01ee5770cf6430be5f7a7ba0f08ec730ae9acc5a331381332bc831e2031787b0f6389ede67761c6f162caff724d1eaf21ab5b1d456131a3aedafc4136b305b231de7373a3a2a; 0x10d63bc5041c01b0412a7741962a7ac23e1240207996f69c571e12c519dbfd04dbb365884e7332b69b0333edecef452b68d0639172980e80a60d57367a508d2a270f125883b1f9a956fb0bd0; 0x68a450bfea130a6f1a6a945a0816d0ac73fb16cc6d1645db16d912d5bcf61ad6c912d93e13c0fc4275af739b80dcde1a38f1ea9f9e4b1fc8fe909db92bd42567113a2ee3855ffda26a26d5b; 0x3c62d368080c7c149c53ab59e503133d316a17978d80ff29b5087ca973ce39aa0ad782f5ea66475b37ff5927120881782e9f34a126d8b57eaf201122f5b733edad4144ff4156cca852a60017; 0x2d619cf2f3f43969e4495c6a98693d4e29ac81c54c3097cf5d6f3f3c0340216a1378deee3b23af73fc87baed5934571c5c953daa440041f30e69231e77e533758918bd62ec3230a3dc697a6d; 0x4ecb5e871c8487f5ef82b6f6e5dc5a822b87d798596a8c4a541d55ffe4de5bcf5c734278a5550f06f9621c96c3d48cbfd8da66f68efb88fe44d72047ea1dda090e4b25d81636dff0f264c0c7; 0x5c57bfbfdae45cc6b6945ff0239657111060bb53292132e68ba912cf368620632ac4d49aab9ca2a5272a36f3db48253563101f456d318fd2c547ad8e1486d545c3c16737e0eb29d3225f73f7; 0x13c09ed74fca17f444c10e013094f63111e23d72b3d59df7603e8993010fbe0378e3b2a2341bc69bc0d33bbdbbd2f019586503bc84bcdba8a484fbf0a8165f1e30042f171127401e77dedd5e; 0x57d780be1e7e447c3866bfcb5af3c8c7a88c84e420cca9d93a961c8600f3ef9ec09985888504a0da476fc65bb611bae0717084e564a4538e9e33754f8915f60057ac2fda52959ff84144e2d9; 0x141a84fbecab4788df6263b7d6d3cdb4d003e2905cc6d3400e243fe99044de488206bebeb845c5d62a74d9f8b0e3379cd4d822aaf2e4b7f534c6f81d4441f38ea55e11bc4bdcbc2efaa02dfc; 0x5cd16858f887b095a82db332a5344bb9207bd3350b987ab8873c17ddd0376237bad31f5484861c2a16a875772f64ea965ea07e2aa2cf60b30d90ea7d435f6a51968037568a06e0745037506c; 0x57a82f375d9d9c5393e4f2ac70ee10128f81e44200e4e0666dba40438d82725b59f5f93661f67c9dfdbf14a143a2db97485412ad502d18153be3e99e594595c01b7d312bb383a362811fec8d; 0x69ca5f46f6101bdd5e879c241862255d0198aed85770644be0e526c04d32c0f06d60db554aca63661e6c1528b9db97d945b2eb402cd41145d00e771a2a2e2c81b703488fbee1c04b4db2d17e; 0x4bb2ec93ac27f7614cc15e3c54307a968646100d28d3405ebab2891a304045c7bf4fc1e0d3662241861bb67c00399f6225707f295ee321ef46318fbe27b162f6b530eae62adc2f5284c32e1b; 0x36ca9471b74d925a6ca33cc42fa741cae826f22ed59c5c551b45f3ad9294344e4400aa9252a1c9c1aba482244da8e6b700cc3d6bd76e78c38e0b8085add1671ce0721715b2a911749a6fde00; 0x5dd88367ed1825c45971a78c5d2ad001cc4e39aee0f4caae85ebe854306c6160b7f69d50d01480bb7129289109d42f893b2084da117840522d54e1fa3b22b61580d097b6a4c73185da102555; 0x15fe0fde1684720bcf23802828d052b949b9af09f369aaa8103fa55ed1682e2ee8622668f118c65f9ba8afa1c0755d69d52c4b2c1a127d8caf734fd82b7b10b57c20fa70dd21eb1fdfae2e56; 0x23e4745a84f8c4212ebef8740732ba0b42fb79eb52a914467ba2109c91a8bdd6259b8f1f14241a94b1a06c8a956976eb8639520955dff5b2fb7357b2f98442bb5da65dcd9e8b5484733efb75; 0x46576b5d00ed3265acd6c43dc6acae2c13294bf2eaf33b38b0407327ab0d3856160c13d65ecd4409fff70f26800ef85a765da93194447b2b714a39d64ca10c3b28a4b22e158077022458fb41; 0x3bbd2b1a35a1e6976b2da53bb6d91fd99ccd135acc04bddff6af1847d609c20d87917782eb95d8dd8db0f30aebe135581ed464d9f09a47068b123090ed4fff28249ea99a5cf7a2b3d2dce784; 0x38aa0a60821d5c116c2a1dde51576d9fab2cdfe3ea81e4e46d22490df98b19dba42e406a1bcabdd71c423b6cfee1d0bf14e43d2bf1b76368cba58697da722aa906183c37222f2768cbe9fb25; 0x73516ae298507ae6cf986016c3663e68f8ee724bda47284a50b64c20126477599372b2c002660cb19f6c26a74a62af034c511db8f70dc9660e7b6f09233f399e0c09fde7387f4b3a4116aa3c; 0x34580d3cfe77a4d01e74d5dc3acc188310e00a30d9d06c49627dccc6972eb94fb02450d872cbff6c95a19543b355dba2780a48c5314f2709aa255b727a55433a895e7a114e3d136a9c329f65; 0xa74c5a3d249aaa8db82075dcdc19e48f19da2d5ef34691e500d6b7050c7c34bd282190a9c6b1e9aa24c66f5457b223ec288f60498c3220b959ec127b729655cd465372f6bd5c97a0b09c68c; 0x222af8f7ebe8a27c7b86eae84c717bc0c5075a778882544300d5077567444f39106ed7bd83383abad2a2df11cf3800f1a13f2f4afb2f59df214b9e6d73cc891acd7cc7f369d3f4133d71ad78; 0xde48bb57dde922801776e6489a750a589fbccbd61f79fab7de915dd0d312c7bfa2863ff704793c1f9bba1f3edee94cbaa852f9dca477e1c2d0e36beda1ec66030b1cbd2072c8b6e03fceb7a; 0x28ba5238a5c81b8adc8bd93ed9456c78611f1cb0e397ee3fac1e8e7b38de3be71c5cb84b268e10b0d4a7f254c424bf88573413cdb29c61b2ccb413e84a88e73c26188e08ce63f08e0099cbac; 0x66f6f4fc99626e66f585a83f8c5d0f838cb8b01fc3c5f1d240422c30fc09829e9dc0bdcd7a60926e1ba9c4adf51d080ebc80ee68a0c8fc5d71eadda4fd8b0691c23d17e312e8b9d15f4a70ce; 0x26d3626cc9a06515931506797f62cfb6f59785e4b62af09ed75b297410f454247f0057621e31103f8d5c0708ec0b1ba6309f7b71536c0c95c19019f545395bbb26dcde9a9b6e9322b5a23f3; 0x2cc7884d16855af89476f8f6529ba0568f508e62b86da53e4744a5947b5a4550fe9bea03bb83ab3daf81f3b718b6fa27b75bfdae070f9741f4d2d40d28203f794c25e6e92ff38e148cd95901; 0xe0e01b70be176ea350bab18fe795f7b572d3b01be1212b540e87650e491ff440c60c7b542c4a8fd30ccefb38580c01582069f557fb4146c35dfd12fb51d39144a3712acffa7078686e04910; 0x4f6bc59fdd953ee6356eae9c1917dbd2c7869e5cd10896c5fd0a1655bab6c0b2e18059efcc4bcd21afb3f084200e61d449f2ab2bf48471ffcf540ed288d0cf6b1b0ee4a21f54999110c94d9e; 0x3f4dc606b049d97e5d842ec12e5f021b42b7755660461d96568cc77877fa34b69981a22eb9d18e0acc08b121d867fb1cc113bd188910fa7a42483d68ab216a42cffcf5d18e2f4ee71446c6c7; 0x7e29dd7613c10f96ed9adb7e9fe1fa6234440237a404bdd1f25184e6dc67bc2e17bbefb25d0f4f03f1d5e3b1abfd028784eae647005382dffeb49d1cafd1e3982315858f8bb1690c30fb27b3; 0x373af2ef83c0717c1a6b9addc3c7db04aaabedc12b3a53a755a6822ffea93b4541be28c8fc2b529018484fbab18b71f5cf0a5f771f810f6f8280dfd1e72887aeadf8e6c2b48666a1a911e1e; 0x295d210d2b3a710f1fbd55b1daa0eaf2322031805854f3feae8f7841b5be8b7a481bdd2ec857b4805dc466f51619994496ae5b85edfc2d5b9357047869c51cdb07da3fab3bed0988747ae132; 0x2229f001e6d00d2ec01cb210bb9e78e365ed0e0693449e8179f52499acdf65866282b01889650bd5786394c0fb1d640ea7813ca81e9df68f2f9da0f6826557195e47853d1c555bee3def55c1; 0x55152aae3504ac1534adcb77eba9823dbba72f6ea89abe33894e331e9dd20c9e35615f3de86a758ae5aa96a052b1004a1d982a82b759f26b2c379c25d93a629828c51c1bab5f737d3ea1f9ad; 0x6fcfc80637572d0017adf73fd04ad1c0d324915486f4973b2c716beb4651bd10f53d0c0d6bb60d3f5d0b92925349a27585679046778c92c7116aa737297e9a20c18b9af1c4b972915aa1f402; 0x42ad28ee4a4de655adbe47c3931cc9b34337f098ffdf01c81aa540f2628ffc0b9666d9d98f7f29773103cfde2b94fdd0e5b3e72c54f6af52b740c619862557378e94774154c0881eb3e42524; 0x312872bd7ed88fa34095ad937052888857d3424071f6057c1351631fb51e0a31482cac33eabe7117cb44e08dc3fa9ef5a5e0833cbc9e30af6f01925781275e7b83bb50cbeedd79add6c90add; 0x7b672eb6f8170a3706522fe1dc9111f4c391293b42692bdc6f889daeb347b3864fb39047435d3a6d20e83ec2aba687000a6adfe9a4691074e1a902b18955fb4b96cd343d3257096ef1af0916; 0x460f8dc024345770bc3d8ede509a6e2c7a52011b3a1628ff516581350217b486d476d7e892e4a02ba45b424a15ec92fe8eb2c36e273b2f44596320b7f75c811a25a3ef7c8ce5b1b4cb0c7f85; 0x5b114b6eb38506ae8781b151cf86069feecc51cb40d215b3b419f58154b541076197c6259161f48d305130301cec45e203ae43719aafd5ef10e13acb2dd4e1a6b1ab6442d31207fb0a26593f; 0x4a37e0ff59c01ca6fbfb6f7ad68d06a714dcc1b053834502361ea259c673bfdde7dedb46ebdb03da9a0c12165c749469e12a2f81afc88ba67e59946299764f564c2f2aabf8b7d07b8802b56b; 0x76837cda228142a66f92ab8d863087a017c61af89fcafcc6e9f394e10ee340906115cb9928c338a4571d70bc8019f82c9239f237289d0fc3daf140036cc46ed2390ff0f5279e6668b035014a; 0x214ae1e25701949dc4c15d195ab90a9ce2fde10e64b243080dcb410911af8dc7e91e9950e580f55598552a7fb27ff5256259db8028fe49b8e362c3e1d918559394013eba7670707bc1f3ecc6; 0x6f5d42ac30d3d9255a529e4596bdc0f41b32d73c189f90cf67abdc90e89e7c4e42841fdc1b5fdf7e75d440c98c9ccffcaeb292091b20fbf0f09ee27ae0d5e742e42a8ada47afb0e0d0c9e6c8; 0x311123267a28b18cf957688fa57270b1169340825f5a46ae6fc97791e87344d7a1c586f3263778d4b469829b487847c98693b0c2c5348fd96dbd872c174d8749ef76c7d60b58b71e34f86406; 0x119838863732697229888238ffb21395b118e9f826a20ba8d2ba19f60dcc7d47a7db872937eafdbc59c63ad03cb3c4d0121be13e59fa913ef214886aa60e8af1b1e89706b6ced9c428adc926; 0x228ab110131f2cf0b59fa9e1ea97887331c2b6de5dfaa03e150db2ad293be163fc98e8a74af4573c95f41b6d3e7bb91dfa5777a7b77acd4d87649f40b25939fc432f76d75b61b9fcad0c24df; 0x3c71fd7bde71288ee07ae48b2a8608f0d9ed531531268c0c981867dda34bbcf3250eeec90f7412e05e8901357b2d297aa18ff3d36f9aab1de423581525eb25b5812c06255c47e8c394d32b3a; 0x3cf4a332a72feccb8a6be572891238886f7d92c127b712a4a8ffd099a7027337bb1ae8e5aa65d04bf5ed2a5e25d23575f7dff273cd2e43ec8524b42a1a5e1f5582d49372b7a9754740a664fd; 0x18598c9caa09dc4f219a44b53f3569cd9ab01989bd22829e93919f1b480ea2863c6e13ded0863c0ae87afec2a4972de516b7f74145cf9d081b90017f03c8c3984d502c563d5b16959d44891c; 0x6ef7f5617b41b3cb89b889e77fe864dec2e130f09272abe0cd05192b15435d0d4ef851eee8de752a8dabc53617cafdd46bd245c245e834dbe3f55c6914faa0f84251e609a8b3285ce707d85; 0x4932778b161c190c44bfe0173b704ec389e09e1e754212afd202db7648f6b2459c7cde7b352c556b0ff20a7cf189154e09fbf791dec6af6147fa5312d3fe2a6ea66f23f316d471ac7b0f751f; 0x2f246578f0599485974dac54814d4f7323b3351c2e999136b2e330af79ee534974222218f40e5dd8b66d60d29749e12f309a5dae927fda8730fc93acad49d6440bb8cef2714a12f7eb372ec0; 0x76e4b9df6d37784986c99349c87e4ff6a374869c34ff2840a4ae6d688d096648ee3cefef6fdb84dd322086c52fd20e6dc4e5b08750bce5c7d4b426a4685e459863100977b2fac0f426579c21; 0x132078c642484faafed0524f7ad250389d63f19dd0ce4cb2fba2a33163034dabccd6d36997833ebbdc09c4e6d7c2c06d0bfb118ab570e3f74c4567e0f9c238bcc336736b61f25ae56fc34d99; 0x4fbacf9b3e2ad2997d4ef03b9b42279705782ca3ba2126c44325eeac4ff26eb079f8072e72f992ff414a3563cd250d6b8fea5e8ca2a2f3c6d9b3676c882ec3a9bf750444ccb99f55e843ea38; 0x27bad25131915e163b344406993ad24b56b595bada8097da265c51e06606a76f31ca3f09bbffcbc35cd5dadd630723ed9cb9117204a926c5d951dd703309b1a127527609357f698e2769d754; 0x6026124e593e8c63e6e88795182d2dda482281b706f464ec832351d3c38e3695ee21626e7e181f2e9b0de8b6a7950f625b969679cd6bf9d132eb037eced02e558dab4db35e9559ddc64b9a56; 0x120c6be5d2c6c9a46ca26e31941d8022c3181a00ba034d45770a0e81e8221313ed52911ba8d424329687904c24bf5e7e592ca59975b37c97b1b26da2ca6c2c4680ee7850d0a3436a9060a4e; 0x2a203cbbff80592eb86e22dce6d50cf37b2fdcdcb6c67201cd2bea7598ba70c06b94f5db4419b12b07f0af59d9de29e9d68fb78ce8c27215b13db886ca467f0c746ebd93636290ea795cc935; 0x6b57f1c5551ba4f1d8b515a854a9f40232f1aed9ff2c9e66a4cfbb2d22c59cded95cc9c9f83c6d7724f25924c9ab224e18ad79d190043cc06eab4f4e42e2572ad5582e2f37c4303169fdc5c8; 0x64dee13aec4f5b93806f0b268f27f8ecf088b4540251e70ee68328c4e3275a577afb10346b8d261a1a47a22acf6b5a9cbf9be32b4912706a0c6e7b769b272c67bbdd4a7e494432a7e64700b3; 0x60b387c4d62b277c03efb45074f48f7f00105ae326275666e19667c50eb088ad9765cd1d259ba2751663721f745b8393023dd6024811c4bc494dbe617145f4efaf2e42164a48cd00c57b6cf2; 0x476f99d3f8edd0e506d2ea200344b475f4d0ad78365dd9851f5fed84df5e80eb0e2947143bdfa82297b795c1a774a91a19ef968647c6900eb03004d52860cfc992f5671d8df31c0bfbc42f27; 0x1dcd363a2fc8507207d0b1fe0765441f2b12ff51fd912d248b458e39b55c96462eed8607d1e02cb62ce6d7af8e1a8a411f6eb407bb30e0c9eb8e38a68347501828180876b7b5b9bebd5a65cf; 0x5180d6f7c1165c7aa4fe7309f3f740b01d0a374781e2ecac175c111e4794569ee02b105bbf776a190b695000fae95caeb7de834349e03b62b1bd69aeab0fa8503b36f9099086d0a704535489; 0x1e9d01f069e79a682d8fb8fc7e18ab90b71700427a53d08542859ac181adffbd1e51eac622e05c89c122e6ce3b89c284ccd386ef144ecda3b4984ac826ce0ed2ac441542da7e41aae045b20d; 0x459a50e04c9b3d8d83ba21713147199cd45e27ca9d6c6918f77c42098223316f065a5c941894e1e93e38e54ae0f8b1652612c76c48331570156f9304e1e26c36fb9ce4b5c736b534a800d9dc; 0x5d19ef180fc0efd1e54d2552b3f6d31c1a5f7d1bae105e9b120e3ccf3ed641f6cb70ecfad98b67b6bb650e4db4f86f40d5985549fe369d5229c1f20e600b9a7e6499511deb6b37016e5ee128; 0x7b46cfbb92dfa03536f59f3a87fdd11e911538ed61ade2b600b9011864ad9c47168b5261a08b34d3755c2c9812a8cfdc63e220a23766336a5f1caa78acbb486b845aa7af1c70528de9a15423; 0x38e4542e61046e15a607bd1f626766f88dd5886f174664273dd5a6c428cd605c41bb0abc3985667af1fa6ba6d9db33a6051d9402dc026a14cb49aaa2943f1aa530202a0070d6858eefdf1471; 0x6c1a744e170fcde62fd3c33041daf386a8ce7f4ff4872c5d3c2da345b3ad3a72443cb73b8fe1621b856d44616a27eb5805c056287df03966cdc590d2304b731cb3c81707746b53763cb4e127; 0x6af43363f8719feb4a96275c70057fa3bc08d09fdcc4badc41bc9449d64bb14be24647ab48463c140e6ba4955a0e74c0899899a7bccfc8ce28945e449ae3b230d7434e115d9cbdd18e3e9b54; 0x61e6a5f5919719bbd6eefc049566fa27b7e904289e2d0850e7a4e2ef488af969bd23390f4a67b04cd92b5c054ad81f42bc72ecd2bb4a60ff0e3470354c78d25ada6b172d5b466fdaaf341e5f; 0x2f8465271b7ea3de3aa21dfddd2eb73431b6f76301fb8301281aec7164730c2bc348a0d41c86445d90ed0d0c00c135a46d534b4bb32e70fc232584c1a0c10d75adbe76c7bceda87c41933a86; 0x73c2a17ab5744a02286e8427fc456e821e3f40fcc437ea3634591f9502ff765705e81cd274a8247e0a4d4f9522c8d64edaacf0f7cbf10d2735e1cbe9ca65ce5d7b7febb88ba3e990a5cf8db1; 0x3e1791542392b9814a6415337d22fabd7f37cff2d247b90eadc542e039be72f93d0229b41df29d008253ce4b7afbd68c95fcf531988b96175be9105c0e61e6d6afada03e4e069bdc0edcc138; 0x259c96f0ad39136ea20dcf39bb11e048a94d09ada3133005db093675fe86a51cc5a6d119bc70541f8c044f42f5b5d0b72d9b06b88cd62c7527c4099767f2e3bb5b29cbcf3c3c1c85d6612127; 0x763fe57c9abcc4e2f120abe74f28fd173e5a28b204c5764a18793308d24beddb171f790397e989505fc7f4b392c8b38ab0c4145c4cfd5f1affa208f6d47cd3be3b968c0f8662255f7446e7bc; 0x56d06064a335ccd4de6039176cbff4fd9abeddba2494fd718418f239a05ff864c3c45e557adf2f6656c00ba44cacd8990d92e6481ad2131d186c782eb4fb966a9587c8d51461976b4e9961dc; 0xb1efd1fd0d52abcd3add6a3da1d6a74f3fcaa912288cd6d97d817aa8a7dcc5199c5a67339bf42050ac1d052cbf55cdaab2d1507f848704f81e7301639f8fcd9206eea5a6604b74b36872fa; 0x6e875e9e100790d58cebdc6087e62f6883bdcd2ba35e7e490db9c0a202f759cb83ff876e1ff83777abde52463a4fd0291dad6389fc7d5cb3aa927e438f2d7cbdf17e9ea5d7d0060098048398; 0x4658b5a73cd3e81e60ffd8975bdd093194dfb7920bd2e88a52e0ccb60e3bb6dea23fb536baca71ca6421a781b0adc5c8dde589c4a3255e0f17063dd641cd4a4f5590d90ec361a4d3367ca968; 0x40d81600f4822a1308303a690813aebfe9872a78fabd43039575a9a4bbed4dda92d3c9d715d504afbe9093ac98c2b94ca407d0e786c645414df9a0d2d2e98d7da21927b1c3025513e19feda3; 0x15649c41537a8682c489256786f9e29bf8263c18be778235a2d5343e907765e253bcd31811fba79fab6b2f42a5991fc71252c4a9dad8c5d94a9742fbe88c3051018adfb1da72df04fa58dd8d; 0x79cbe3b0209c221fe8524f9c6c7f440b0801fe9a232afef800f4808849b76fbfb732c627f6bce97ef1d2c8ba8b7d2e99a55e172b9a6e80cd194cd0cdbe76e66d253596e5a981224db917e78c; 0x50bfa4f7d11b271cd632eba745deb01bd42b20f6bf5dd8c12c4892118c9eb67150e492da48df51df3e992e669819a0bc9c87ec13122157c6d5b80371de0a8f06bcb60ef256cea597d1c1e7ef; 0x3be15fc6a074467362cf44d9f538732413a6fc17856bff66848b44cfb59840e75cb0b01155eef5466f0c50b5697892649655271c6d49a8546a50ca57a013639b333aa6d2e4dc738692d2e320; 0x24cd9c838db56da226cfb85a6776bae4f03d100a578e2b65cda40d57590f16e3756aafc06490c0c2094c40529e7327e20edb82c5d599645c891ada0587295a66d59a5802034d3ebe9803511f; 0x6bd8d7b2327ae4626c37c80abdb1d875762c9304f5da0253306c9157efa03a5da58e8d40ef7f36dc2979a92f8a9c26f28f16fcf6e9d6cdaf299b4b6eb02400f6eb46e13544c034d61cfd78d4; 0x6cbf8ddaece8594f49e6b6e2ccdbf03b9c6033ba1bca9df9cd2ab4fe10c5e5b4660915b296b13d8300136649914a8b06c3cae39e4fdbc49dfb5979f9a2805c7d0584f22b9d5eaec9c43942f5; 0x59ce7e7073bbf0ade3ab1022bdf50d7cda4acea781b1ee416c05e5e44b5ff9c0758a4b2aeb7fc07b5a74b99a26ad2967bbcdd2ca2a1114e8a834042a702a5ee4961615311a49d974b7b460eb; 0x3453d9e5e88739bc4652a10d95cdc569f1dc22fe2f9512313b7846b8354ea8ce4df2548cb47988650dcd4d78d7e7abbc08782cb4e861b1a300c5f0dad20643f9c4ca80562bc73a4c156c969; 0x7e963ca80f99ba5785dc09c7e4114ed083246929d7391c403cfef84949d6a05418b73f89a1d3b8a0f373cd53f6659397267ddaa5b8f4cc7519d339710ecb2b9fa43fb78b981075b44c021944; 0xf95b4cf84a32377ecc98ca81292bfe6a882c08b582dd3cbbdc92e0b7f2aeddcadd13d0629fe3dce15e0c2ea793d68304bba684fd5c0e6441f51788c8403e40c04f04ad7cc7aeec90941e323; 0x3c31392def53b970bd6376c652b494bf5ac9a006b790c6de2b244af4d297b7f87c47b9d38f5973af1ced283c4b51076a89c13f48726bfea2693bd89d1199ccb16dbc9babd5e4cfbf6dcf333; 0x7f27ca4478d9948d60d4c238bd53a2574e2ac14cc04ef77828f213d130011fa414d095d895a28d32c007f817def59c7996bf568744ddf503af6c67afdb413ca4a388de1519c0269ddccd21cf; 0x71be3b629ba9a84fba6b5047c74be16a5c219503bec64beeb57dff58c21d75bd6c761396a4cc3665e99826b356ce3affb68dc0cd46aa692b49c5bea2e32c97f37e0ad8097d9d8db14fb6a9d; 0x75a39ff1fde604011b83da1f799851b451b109efbcb2d3aeea01e77ff282fdecf1121dc3f3e7e0f74adc8f6e4bb75718b409d5ec531dd1759b20f55f9f027d909034988b0df4a45089c7f90d; 0x22310357c3eaf948a60b80ec23faaa72a9202596048087324a69e97d0eb8222ead9af213ac2aa37524087e6a741442c9355c1b6ab090f66df5c7f7fcb57bf4b28891e65bd8444a07f6d2e57c; 0x327989e6f4ea7f1ed44a85110807a10c5add89e32d87ad91545d90264f7d4b1a5a16ae345fb1af5eafefa1007d48abcaa3c85c66f8d7241f3af12a81c4ee08020bc74afa6f27dfd8f3ba75a2; 0x4b0a7395b9978a1a1774fe509ce9b56040726b2de2671ca5b75d70ef5c3dc4ead0975043602b250b71dd287535de9e3c9f09a7236be169aeb1c9a0d706f7dbcdaa0ea063095d29d8eac61c05; 0x4b48ba755d911abd8ed6f55baa59dd169c8f3bcfbb03d2775ad68ca9033aede78a2cfb379f13dcaea891412abd5f1f170a374653fe0684a2987f973c8dbeacaadc97d34c5589a35333428687; 0x202644be0643b173938e8cdeff13229fbb8192788a7375a27a59410541f302d66b25eea8e6576e6ec30c977ea4ed6b15bda4db409bfd8ab753f85b15782c93818aa238c38d9f9ef8df1222d3; 0x2199cbc246709b6451411cd09ab6dad854b3acb690f0795f0447b962141d9f69a6b9d9214e45fbbbb4e785015c504c41ec1b1651f4de82830f1b28b698aa55ad01712e1c269857a74308830d; 0x38b2900af2468215a836a11db48b867c9ba29260535878f99643330258eb8661bbcfdda04c2e463d6f51329a0a5b7258f787d0519ee36960724f5213a61aef87013085a20209cacc896a0a7; 0x7f6f321045ad340d6e5a645e7552f3c5500b68bd1478064cc18e27457066adc685e90697d04a0f0ebe7d05c73b91ded20a019ec37b460da1b41f53e966d06d10d9509bec8df36aed2672fc99; 0x21844f695e9d9bd1a56c81e74474566983189de3d3ac8be0084925db4c0b5e411c0c538d7dc6bcdb8eb014cd0bb1b6cd88d25bbe7c3c15fac6352dfe3dabd12f11b8495dc90b264a2ab46d20; 0x3c65bf154eddd0254254d74fcf919f97341cdd504ae5e654d3140744e18eb788e48df322b9dbf761264fa1d5bdb7d06e960e6f6efbf962449f1e684ca6641079a4ae84d1e979e21084cf7e5c; 0x165dc8771a22c5996b9a7b65eb70fc10fd809caf7ae2a005f49c60ec642602ab5d36ede2ae9dc10cfb921f6f08803e33a579b1108fb860436f2fe44f805101defbed4412df4ce51d90b16892; 0x2be478de3db263f025ca41a0b3957c89cd8ba2efb6090644ffbec86a2e88f6d37db7804b53f88911c833f8032013e3e4ff02e8b75608c0e3cad679f715a626f29842be9fc90e80247242584b; 0x467793a8c253f624adcf9834030982bb8bc2a07fba20a588555662bffa8662838de4b753c6d8885fc76163f8635a5a9a833e5f6ff9382b0e9d6c0d154074bb5316e73b2496cefadc8dc90f14; 0x4bfcd0c66d6ffa293e62ad1c31f895d2f67f9cb6d0203acd7c030ccb5d6b56382da5ea79796d6dba0d95e0a09fe22ca73be3d894cace5e0108fb303dfe17d50554b2c8eb468cf57d1ae1afb5; 0x3a69043dc7a960a11f3512ef5d6a96e7dcfca5db6f6309002dae7444253500f9c8a1c0629436398cc29b78005509f5fdf5b9be58d27aaffc13fbff7a6c83d3c13a45ca047e8a16744a4e58e3; 0x6207fe877be0f78a8d8395fda68cb4f1a96df0beb74480800a10d3b6038bee6d2ff7d424881a02acdf774b4c84609fc82503bc1d2f810527cf6ea9b5e23a516bbe17b2707817d290c4a6f5c3; 0x53d9c6284d13cef8a733fc664d65b294292d210432f54be310113bda6be5ca9f9bfcf88b0cb66c96c25f432fed5d9431136c863dd87196d72a8e1a5a2f684953a66ad6b0bfa0e47802eeda84; 0x65e15bfa97ac08f7b46a473db1a490639e50047127da3433ebc89996a75101cc7ad06b34440793f0759f5c98dcdc7819e9b39ae79e323579d80ac7af3d1dcd1ec69d5902336e519eaba8afd4; 0x43e106ef0fbea91d3085007177ece5c7123338120209f7a87a2f44f79ee6ee794e5d9f4e43b40caee209592fa2a05616bd60ba644be73a41b1d4c839bb8e00719cffd61be5e36a01836d0348; 0x11d1ace252f5e7356ee461fbfe1af7278b793d4e3675d9c1124bbb781e471fc7a38633a0bd8279f9b195340cea18279fa8edac9eb6794cf6032e47e28a146fe5dcdb17e54f6fa70e5e29f963; 0x445c0def3f1b032431b5e9997bc4c9b6a248b0128dedea54187d14ee4f4a5cfdd1ff0f14cb3bd0fbda0e935d81113dcae8bdcbb27cfd17bc1a0c63b5b46092a6f26c01e0a4630400544927fa; 0x4720931bd992c19e8881db5b856c80b4d054938c68f4765a2f6aac30d0aba08d0698a113ac33b0d0057734fc4db264b4f4e68cd3286c8ed4a2b04063f1c191310a276a05535359a08ed5ca5; 0x405b0c7bb7ac0221c8beebefda88479ce4a9a4f12a36d4e81452532784580bbee692a8aa2af2ecff047f95b10a0b667d38d16ee2c278728ce20b6624e69da2e926f89c8b030341867418895c; 0x7c2987255d033f513f59830a4c38b131a6b6b8266e314e94c0a50dc3499c8582bc9f4bb056f81ad5b0b15ef74be9567a9193d47492887f501e851a0c9d9a25575832fe5832f67e9e1a331aec; 0x1fa1d8c7d45b5abecea6241f8e35555e046583ad6b85d8843d83973c55b99bcff0b526193d8c02cc78992308780d7ba4b9e190fa37725a4c4db8eda6ba6fcccfc94dca526d97aad9cb80a3d5; 0x75c74ce3cec3f1e077f2199f3854d48ebf239621d0a1f922cea7596e906466c963def7b1aea89241fc9638fde1fab6ef81499b1d44ead1ba8b83522676424472fafac6184ac04ac8cf16dad2; 0x49013ba49ea6791df2c58d568dc12d87b105999faf3af8f83e4fc04b93828109e57918698bd7e659f879b403cf2c3dd8dedfc4c044482fdbdaeb018eec7eda35b87c110749a8973fd77c34d6; 0x2baeed82d74a9b5a8c93c9d20ce7c4f34dc324325887d75f1e558410ec168ad72b89f40ecf809e18df9b324f287b4a520864f0dc432eed217686abf5b401ea2e5571ff1e0ee681c0cc86bdbf; 0x59d91468c45561149c4ac17af1e4c99700d2635865c112891cad7f6548e5a29cc41809488d9470dc49e46dd8bce725c95fad2ed74ac226e11b53eca707deb48398450eaeaea3be77f8261a11; 0x30a3bdbaf515ce554f4ebd25a0be643913d82a41ce775edd7e885ab1a66b6171800c84d353348a19dcf52c4f4f618c7e140a5e1a7eb5a3bd471ec0f3e34cc0ec152b538e538376265c036208; 0x32faa04b4081d7e64fd0f40348b077be209e5e3cfee5f19587c4e1b4e972b002045d40242432df6ea2ddbddf2bf3c7cef97b178f6542aace97ba9283bdc93f4335b65d73037ff71d148e72ef; 0x6a3c0b0e090e7e3bc1ab75420cbbf08dd4df71453b4af5a25f0a23629108d20f094e9ad02e1c0ae8fdaee8467aeb8b937742c6e0dee13fabb73c589151f341d310b9375f28d0c28e75cb63f0; 0x40c8a0e34ef0d8da8d7bf8630fca7170fc0ad8a5a8d60524396300e05936ecc8a3037b5dc76a7e3231951f59b2a7722f613c83a8ef0edee1e6e7b1031c257d9e2595727e7724fade0be14de5; 0x4dad8ec89ad9eb4fd00bf892b2f7720442680ab3f071f4555da3b55284d7fd1c1c91ebfa94ba7270351d646ba02ab79a4f7b99bec65f8087d2e1bc34c99c54ea80847b977f42af915b3dd755; 0x5bdf660b0d3409299fa10f5adfa85f0939611afc673c0e53851399814cf3a2d492ebcbe249997432355fdc0ea2abd78dfb11605aaebd803a63a85d32f0b4008636fefbd514f686904666892; 0x695c19f6631a79ad424b6a1928dc2e850ba8644898d234db1fb5f20960e85c4aaf78bcbac49a637269ddeb82d97ef640553fad9f6e54d4bc058f8994d8d83deef4228bba146494a76d35cf07; 0x13fe112e9cf779d6f9d0de43767c26b556f0fca24066455aebe223325f2414035f3afcec6e00cfd909ebe569238629e440fbc8dd50d113cd854b6f9857616eb049e692e373f5fd460bf57a2c; 0x5185e751c5f4407a5f148574a5f0a8d425487455830417ec4caeb9239a544a4ceb51d56b2b96ba3c45f9e4098e2e093cb3267b3bf68235e2578daf443eb9a09d35a20b4d840841fc7f1e4ddc; 0x1064876bab0e47e732548fb1d535f094e2770ec5ee015c888b0385a982526796b8771c63360245622fc11a9ca78b564730e5958114f2d6a2b7e717d3eacb672a3bbd332db3cc824808929e7f; 0x5dfab8f6ec45f207d84dd7e4a5b745c8a7b5d742139ce795c9433b465e8402c7ad9ec56167fa62b15917c98b423e3c41f9fe1f5b9374d9c267e3365a5ba187a733a9e759702201bdc3230445; 0x2cfeb4b42d5e38220e80e2119fb04d4cb07326f8a962241ae00aecce7e501c959fe8d57ad2d885b8fc3026650b7d54bb21b1488ff5af4cc15db37361c4173527cc1a314d56bd532ce46bdf1c; 0x724d02522e59b304c7a521c359614026d2ee116f1e455758f5ed414d9b4e852d0273be01b46065ec5da5d935d00abc51c7d55445f892a310fc1b330995cd8441670d802edfa7736736385c89; 0x7e743384272679a6be30ecdbd84f6e2a942a7cf92abb4f6fdc5fb3856e3a0b615545150cb09bcc443b59b77eea5b97bbbd2bb1593ce7f689c7b9614bd105db690a02df8ca49235d9ae476991; 0x6c5cd998ecd63730735fb42df8a8914433075ee318dc18c1bd649387c2f2ebd307af876b46e672774f261717126b95ba30ffd31f274cc43f96452fcb7071693d01fdf8290b33afe6e0a9e51e; 0x7f57a6033962f31724ec3a464c138e730ffa1f2374539160ff7df50de2260dd5adcdf35c8d204e6cbc6d894fe2b5256332b482e1a26182aca657cefed979d8438630687e91f65a521d084a3e; 0x56d60a530bfd7d14616693d64488d4bc259189f233120c9eae61f1a8d517d9db07c67fe99ea8531bc1e9f24c75196e7921c04bd3b2c0c2580ef04071c9af3a3572d72f950635661b50f056f7; 0x38daf0016c21b2150a2dff47863cddf925113116d3376510e3ca12157d1b693608d063fc653dd7d3afe6bcf2c9bd5b07ab6beb29887191c4b50868735a9c9b9cc8d8e7327a8d1ef2154dfcdd; 0x4e686d2c2f5a14fb67dce90408289d60411951b641b7f3fb4703d69cbb37068993df00e596c9180e99da221cb5d1c8c8ad1806da8a9fba5d3f095072b9c10ae94313f38a858a381f53863e2e; 0xb58c946f5936f96141cd023e17e4131de75fac4b4e76d67b4929b087cae38e147e6daa0ccfb85c59e89da0b1de9f833d4415b2bf3b921a14709dbcc8e2ecf7a79f990a00e32aac131b96874; 0xf91c38a8607a6ea947262961d86c4898ef021769135b79da9362cfb95a97129b825e86cca3cc785ac723528f3d48c7cfa6f378471158b32f2d0fbd3e3374f671df52f6ddc318a3b3efb23e0; 0x328fcbf57fb6cb22c17325a79fcb93a112a33434690bcb2059598b2e02f233d307c9a59053c0b667a21b4fc1e69c08e8b5cf7590fc7921342473e3d0a9bf314c80769b23931fee57e61526e2; 0x2d9cc182866fc520bbd7ac8d9791df315e7601c056f38bbb82fe61327e698ceae6f09f447d13222289d74f07e7eeee1e6a8d919fb1fa1e9425f4b31352524f69e276ece41b596e930c37a6e1; 0x47bfc94e28dd109e83890387cd273c53c0667f9c48b559deddc2758cf2a743a673d30eb8b1b0de5bfb048e9453417859d2a1594115d3fe1c3945d41c0396a4e7de4c9d222e6a406b5c673363; 0x6cd5a6fcf4fce385d65ad0fdd37cc5126c1de89701060a3198afb6c47973d620fb4de7327fb3931d3845f19d8dcd70a79bb192903b18ad965e8084b7d7f9fab386726319ce28e010a715ec7e; 0x2d1e06c6c5c4010cd1e0dbb074e22f30730f76f18003f094e84e4b9690f269e93671099eb2df3984b75773c2f13a77ece9c9dd7f6293d3c725fa1a00cda5df46c9a9e724a7b0bf75b3f0b9cf; 0x6f832f38df60699a57a115c18cdb606c97e0253e59a9042be74d9788af52d5d2361e51bbdaede29141c9b5b4843ff00ee7627cb9ae1b564d0c8f996746022ab3b7917fe4f592a84e4ed12f9f; 0x479e9348a9b6811d8c27c75dc8ad6e3193f3b0b1c07a7b6b424f65e2c59b765315e6fb8cbfae4e4a226167bbc45dbf6519067924c52caaf8e6f34e6735cdac96a7cd71d58fa1b7fa2c5e3d16; 0x666ca49029c18a32147a1d885ca8f2abb880dbb55c0d76efa2e80491d17979023edd249110c4fa579a48a02dd1839c963d98e94957a74c4c2714bbe83c48c924ba870c5121b8c45669c7cc6e; 0x17a1b82f2b45e7053a385f43eea35b9cf66d2ccb3c6cec60d9c23d3c801352fefd1e5a3290bbf5d08584e7f0e1fedc7ce81c34c771c4ac99b1c1ff1f160e6c25f5b93684be86d18640ca0cf7; 0x6a150beca2f7e48432d2e061219adf8e97f448fe576ad784bce5d4373947d559c1a114b991a0195eedfa0241964123c0878b4dfd3de3902418e4293b70401e752965dfa8ac6bf2ca8bd3eb56; 0xd05604b4b26c3e493b6dd06288fac3f09c07a0053461c49c9f0bbc799770a88ebfbe14077c40d6b291782e735182944564125e63ac49f5b133137aa3ea31392b030074ebc8b56e86377dfa; 0x637c31433cbdb617e008441e4509eeab7348c9ead6c1199dfd3ae1c0e29d1eb0a2afa66035b8c7a332025c4396e750a14c91d6fddfe10eb8f2c70e45cb5f4f0824b054ec465be38145d89f48; 0x5e01a8e6b7c8c4ff6ce979996bc688e9cd433bab6b95a100ce81aaf51d9e7df295129d2b308267be69b16975c8b145b400f2db2b4f950b36cf36ee551a68f946dab1a478a6777332508b7529; 0x54cc7429e3fdb4b4a10bbf3a44a9f620ebd29cfbcf43e9bef0440d26fe7efef8a5919979531c2eb05ad91dabe3eea3153e67163d63d17f7c10be6c7b6ec02ed1a7312241e48157ac3dbaa59b; 0x41676f07a5aa3e6d69e395b658d74522b0a96b142fd4e45a15e69480df4782f632ef4b7bfc95082767d020f94215d762961b58152d9ed5ec9f10c6e5cece8ae2b83381f80eb90484bb2dfc69; 0x7ac1aa27d5997943ce6ab68ad99d193aa480e88933e42b1002ce5183085d352a86eb5bf301fe71f8212da39e01debae39f381d973ee2f90d56ccbfcc0712955059556b05200d1825ca030afd; 0x18669d8724cc08fa7df6c89436792994872f46f57115a95200b04905dd5a95d088439bcf5cd3c0226fab00a553e4a787db1ffa62e222b358c3d1b9b93b3bd60032b0a96e317755a6813829b8; 0x6ad41b40bb1e16a5c422fe56581148bc35591d227691b58a5be5c70f4f9d743482cbc41c21fd45f095e84d6b16d35506570ac29fc8e3ad10fc8b4f028ad7e369fa3b10da5723a19c7e4e4d1e; 0x17dadb0a50fc2a046f78030d30ac457cfa053d823ed01c6f15ae3c960ac40284931866dd49b57c9816ccd68bc54674bd988d391f711d2a1feb97b57b42e583e4132cd20457a48efc70fd1f5a; 0x2064887556f38be9981eb4b17d32008a045aabc6eb6cde9e4ccf8ac463446d2c5ba3b36973beaca0381fc53fa719a844d13e2c0c214ca13b7cbf13c824902187064beb64b7524475045728b1; 0x5e7043bd3dfde059e41b5c35f69ff89041a4752c2c6437d16670d3158e91887b9ef618c0e1c11da11592072189ea875568d158446d041d46a6274e9bc0dcc0c28ee4464ef5e02dc2ebd2fb62; 0x282dca93e2b3c0abadf1c072cdeecf3886c5e8f71ebbedb37bb1dd7bc08efdcd738d92b6bb9306c42e36d9cea916e67ffd4227c42a33ca502876fb64caea30dc658943ef57a8ed5e9629735; 0x597e350e95c9369a8fcd389cbecdb4ceb9a3846c12904d632bf52668c3ac3fb24ed8021615b5e9e9d2a29a6bfcba9ded2df55189c5ef641f733213d797167e53ba32d8656f6c09c1a7fd9272; 0x34a147371a800e2b0ca52fc714eea2daee59b340b13362b2770e1515ec32d16f06a36f050947e718aff13636e39f192156c7f01a0c68011889c4fa36e290c5a64aa1c5c3689bb71c86d1d1d4; 0x485d3ddce0bb8f07348270eec0ac6d67dd9f861b6df8bd3fc29ce44a75f408240072562ee9007770cd117ab3bd2ccae7a831f5fed796146a889d09f81584ebf72ebe44deea8c1841726b96a1; 0x2f90b8816bb4729960f725fb8c515091c1f39169de9c2cd70aa9921047fdaa58a12739d65c4d0b48d77eb22bcc95e846122d50ad5544bc491353294be0ad76a59eeecbded83c9cffcf158b34; 0x4ac039af25bc1b3a696ddaa800785d874afc56c778abc4004e3da66dad314052e65ef69b82342db265d5298f833d76a386955c0e2736f23f7d14faa02e22b17dcbb088b89c8b82b24851e5ff; 0x7d7a84fed55905328e9d50e0286bae63345a81cdf9948a508fbf1499a1d9caec52b35c8abcc92def84a51e07256e95dcf6b38b806d90d7d9fbd19983e488c8d1475bfcfac52a49b73bf19d38; 0x73984022f6dca92d76b87034dfcb4083d32d74b3b390ff38a0904c96945b1f5734778d415a5030c82c4b45eca03c1334661b14b103dbf4e5ef6e66df44403123b3df6cfbee007a3211e2670e; 0x43769adf0365c2f1c3390b2bab4c8fa06d5ff74aaeacbce44386765e2c36a1b596558205ae7b0307b9ddf61a165d8466d5e5b9004c43fa85c2162b049d44dbc99c9cef1064ac4caf22cd4e84; 0x30c01eca9c2509712cc85c5c108fbf291f5f760c8f761c7273c15f3a8ee2a326c935f44cc2f6bf1d7e0616ed9ec7b141af5fd202c17d248a5c1228ff55bdc1c97887771094ed90d28cde6aab; 0x784faa8fa20f67ba48f1668fcd8fb0b3139eb730b4c30c317b6840c721a23a8f9bb6c0c8e3a64bbe3c64d664761191d3bc137479e51b381b0d3db1c86adadfb911250c4d97cf2b77c93bea2; 0x34652c22e704f1e3092882eafa6914cb18bda6c72e27edc289dc91249a54032f53f87b17dd3c2e1da5588dba54cd4d917684f6e76f4b0f85903ebf64634401066bc316bff1dbe687ef937bbf; 0x37ad63d2b3f0f714f9322f1b32204ced949b5b1d2ddd8517918281f1e317042eb435e1d395d54b5216fb7d33b9d8feada3ccf3c9335495313a728a4191477c7ab383085f7cb561c29b2d9170; 0x3b69468cb63ad7756b43c0e542ac4906043b6909b5bd82e3f340c789c568c11c8a79d2807b6459ce58643cee652df49f00931787b107331bbc090ead8c9e6820f8c55aedd8e5a8ec04ff0b30; 0x4032ea4c89c9f02509266a40414fb0bc3c869baa656a073d4d46ab81bec7cf250ce48070f35ae9a661e5fc048a422f4e55627cc622c71ed0889381e9d804ef0799b75833fdf60f470d0a0302; 0x20802f2153cb5305eda2e39703a54499861d24fad0cd5aa959684f82f0535598380727b3fe79810871fc07085a74b3e58cf47999c3dd835a84f8d2d609bb1060b11bffae72629fcd85d24f9e; 0x5f5b1cf1cec3f798d51c131095f7640b14e2c4cbfd55f9f4dcf31d280f845f719bd9d1816402d358a4bcea698ffe65b29224539bbb6f6f55cca855013f0358656cddb8ad79409e5c5428f297; 0x33c4044083763dd203cd320ef4640fc5e2e1885f943c6ab58b3664429a8ae947d01ce474a0b458dd8355183d4000321183f6c01411f68734910de23d893ccabfce3138f53b83a6e667fe8b1f; 0xdeb2e1e0acae3ed012bddbee2a453da53fdb44235d917728189e02e40a7ec9e56477aa76dc0c56fa353e75d6a05f21706c00b1ef499e11857109b45e7b79e012220903948e6404fe709921; 0x3ecd6cfb2c2a95c3c6ca029bd421e675ad4d372a0f9cedb8e37846ffee5480e9b13881144dcf35a6c81b1072a7ffb8537246e3191591fff9bb4d37c3604f7b333caac5deb308c526b4fe735d; 0xfd38e47fb49d897ba9ea4a8abfea976d87df8928a1da17a70cc2f6253a1a7d10bc279186766c975133827a81d52fc66bc8eccfe814d8ad412858b80f525e99ec43ae2a141ab328eee3fed52; 0x53a7eacece8275c884c97121c48908aa4b5df6949e36fd78b69cebc7ea7efa336992a5d3574c14809be579eaa62ba6d888e5268d7c195a4005f191caf62af6bca1ff17b74983ef10a310aa59; 0x1f77d3b5670da18e2779f71c76d6e294f5be6be89ea2c9fd5cc0a279243afb24244cfbe1045c069faa9d35f24aa76441ad8704abb52584e34545b8c4ad945a722f5784c0ae6273257df34428; 0x3ea2edf359b05c95d5298f1c458ccf79ab8aa722e36db4c29864c0e288c22dae4852b1bc647692350b24f446396639adb6d87a19557a27bbc3b9a99481585fa710eb04d34c6703710ab50117; 0x4bc2528884897501c54845171c4e1fb935efef6183c814576d42b4b135ce3fc1c3ad21f378067f6f97995d85cd06586b78b2de90c0d64512ff0d7bd5e480bb0b49044032304d661630f16a1b; 0x18b7ccd98e3d2713af26f155327a6d86931b78438ab7ef47c04fb4b44f794dee35779486625c1ea2b434a57c0785c4161071c5454e4042aedb5ceca3f465bebaadf4b6f5ee61d9b7ce98102; 0x238b7abc67525035f607f54ef8ceae18f34bd2cc111c5a1299b5d99456f42541ac010a12406e776e9b120a0e00cf60a607dad7c13eecf3313fd363fb283db891c5e54b3a5f33fb51d80de43b; 0x40542cc85460ba3bc8caf2e97456c87970f57bee57b4224b75543c7d6ea6b442c7c6b868c0f80a8ed8219157bba9ef5cc40cfa050ad241be024a0d0ee2556ee760fbce1c8232f238ed43c0ea; 0x3226303c7597170a7c1560a43c17eb086d354b7e96c1b133f977c10a71d365e463e465407208b0089c0c22b2cda90bae97298fa91e38389fa6bc695d7000474af7dd6b342fd73c741f5b7c6; 0x1d93ae501e15bafb35804304264a199f3d7850912fe0fafbd50a1262e07d5a51b63e252579c3b621921fa979d2e023dddc346df9e929b98549786ffeba92e81801c04e148b6ed637847412e6; 0x77f5133629b6ac089348728e41f9bb111f05cdd0ac04ef1529f97480cb0aac8dcd2ab98bcbee8dd359e1432a3cd79a8c123f99d2bfae5091090db8cdf63ea7ced1e7960a6c490086d27efd70; 0x13c3355f6a178709718a472140621fc681c2641e59f784199f5b45fc628ca464535cfd5870cdd005fae1d99727d6f182ce3e16f5417aec66d53077a3bf09c40cc20dbf555b5bbfb8ed34f474; 0x20f7c206121110ab741cde2ec485b993fc88bd8492805a940d1ea12f1f25631c256fc68c62828c1499f2d47ddcc89f38ba9526303213e7f8d37149fc3fb5242acebb577316486f3c96c49646; 0x524ece8515bd3b6f74995cdaeb56521fe4f0380ce239abd1bb24842251676179e6e277a3556ad524db1309135452d378716083f17b51c44d7bc0327e3b5afbf46032836740444e681175ee45; 0x953b7c4db3c4dfc4235411e8a6a277621cd3ea033148ba800e2a63760e5cc18e63c4979600191ebdb18f84b0cd32a4fa6132a6820bc2623ff9fafaeda7905b4e605bd128956fd77978633cc; 0x35b071b520d554d31691917d32fc0bc07eb65cbbf547d0b2e8ccebc829b0842bf76ad1916921665e757b6a7aa10b1a0a5a7603fc6d94d13d1c7dd731c1d9b87ad0290e35a7a2445d72987a4; 0x4a57701f3cea4e122b664d36afbc57d323b524fcf32a9fddaff06b9b7973409d50d59ebf9669f0ada4ed3f43c292e5b0b4003fef2497003e9810846f5301f1f56e97aa0566295ff3587badbd; 0x4b28d60c7ca23cefdf52bb8582b5e99a86a4204d57e419fbccac2880395b5445439e227ba663d7ae0c739b21ae79d6d259806555fc683666618ad387fe7e473a34a2b7c3a41811d905c2471e; 0xc995fac9a96dac84d5d7fe8f26f3b2dba87c141c3742ffb95b7f831077072e7b310a64437452665226364e3861ff81824c37d51da0fa4e8b360891fa68993473230dd62e16c4beb30648baf; 0x1ba44713055cfbcd46eb7ada7486629adeab787240dfa38ff15bf05d118bc67b8c0114b278b170d1374802e61002989a6934a07b9317dc907a9eb0918ca86c6617512d736ec73df8c9ab980e; 0x4579d20b531e3a3ab1a6f69d69fc597c5f0a8accdeebfaca7c49e158086bfc0e7995de1e51655b2c92cd2230d942925afff2b30ea3b136c6fdb55d1eb24b555597fef76f900d5cbcee332a94; 0x5ab48f0cf340379393ac1a1a67759e170c16ff2a73f22338cb96c376c4cda352a5cf4d36b0ce3c2dc3ba6937f0586b969c69349684789461200e3d38c6b0d7cacf4f6648ddaf401d9f25cefe; 0x23a3e4bdb5d60697e7f3b06a462997eca666dd58f8d76934a00b08db4c3e45df9b0ce22f6782bcf9f0617fa932943ac5787cd9185ff7d8c8cd52fdb6ac6decb99f328ff5d2cbbb7f40645055; 0x650762f5f945f0a20666793ac792efb74f220c3fcb80d726894d7410b589405251061540c3dbf3d59caf336f0d7fd6a61b583cf173c04929c5115fdea569bc8690414c2251122d57b69d21f8; 0x3299aa5df6575aee53668712ec90fbd1fe24b17a6c59b4e516988ceff7ec1d7f5247572b7699a67bf3e7012a486d48959620758bb5723ebb6a3b6ebf7d4e01a626fac19503ea5d1901acd718; 0x5282cde84427477c8eb478cc876518ff88f4dcf37e5f3b1f77971e6c4c092428b6b1abbcb4353d251a13f50bf0423aed739f8ce86bf830f3144549d20fe21c4d677950e9d36bcdc589758dab; 0x382bcadf792f8dec66c21484c0eeeb00c1646fed354a85927ea53586e343f4580504bae8fcd7187b3558e2d68d2fba45771a7fdd90f7eb89461ca5cf4ccf285c15d29f7e072620f22f11a04f; 0x360b0f32aa3bd8cdaff4f6424c23226d2e75f61c89787b3db603a09500310d3cf305ae4892a2e6ce69735d79edb7f31efae4e8cfe6037c51ccc7a7258a8c3729287f7e9e8295bd5758f6d48a; 0x2b353ef733efffce3b59e0f024b8fc5b185dc11af99f2aecc25d00bb1ac37e63e17b81d0966e70e1d0b7283f7014b76f1ad003b486bb34ad9934bc8a28a980ca30c24506266b10a52a375f6; 0x5dc7cbd9f28ba495e97fc9a01a28011d2a0d42537fe09b1a18385400aae10a0b6e7fbfa00d72dadbf0d250860bdd016d50a59bf95df9534a76c486b65d0dbc355d3c5ff072eadb5242138d71; 0x595225c2bc10b15bca5766a59e103e83f1117dd593c2d34adedd9416bbce5dd328dda0c9643af7de36dc8a370f532024fb4d2b6809d6ea76584dd3a5099203995000b178c452d1627776f9b4; 0x16f981a5b144afc106b37467dc7c086dcac2c5d9192707d831143f107061e638349ce8c9c3608431354deec974e3c33950e6e774e616b9980f07aa163d8e16c2c76137caa6f66275459314dd; 0xed4f38d02d26e3fe4df7cdb9d30eaf692a0e4e2a3f1f7eca823eafba537b7122572196e9e24482c86289a46543f9e76b8dc468931b1b8b5f5a72564d57b44f2336700c32ba1d6ec63f3bb61; 0x7398fe3564f96395c89dfffe89d689883d1c98f815b166e25adb1d11385c7e204c84f758be9b94e160ce449cc42d043e4a9abf7356e58fcb88fec81930592ec721f5b3973e3cdc725cdd701a; 0x5260e3ab514aa796510573526fe26172d03e0650169b80f7995ffcb3bf7d57ccbbf57f73ed23d5dddc95e3d0e1c25c8b8b5b8d29f48d30d0479047252fda9d9a01db25aa64d4562102c0178a; 0x7eb859b256374c4aff693cb69da94557b6050d4361de1b718c4b4e6b442d373aaa49943ba9592c2eaf9d97ef2f5fce2e7b8c552e62c7f299f8d2f8f841e640d98cb5a15f5d7c93bd48903fad; 0x7aebc4f46cb65b3c2231a46ba03f38c41e463f91831f0bbb2626c620f7615bb46d2f5e61a311ab3426670649b8c1cf04db000fd8db28b5ad39995ddb9d92c9de9469e107ce9c36cdd905dba7; 0x5557eb6e4165bdc7cd670258b1b2b315124ca35ec758aa7f805359f00563cd6d8f6cd8ff5489ce1c9259516ccee464ffbc8d58c56a00c356ecabca47131d11e8b443fb4281db5de11f6d2348; 0x76133d27ae09f533292bbcf334c139c65a93eef88b42da75c6fffcc871e626638bdb6f17ae7c55673a00b23422f463be63e7a2b7db2ce4c5088a08c6ff0098cc7ab672843e0cca42dd9aec3e; 0x7ee76c75f019fbce6befdc89e497822df9928df8c32ba7551481cbced55e3d0325259aa4b9dea30b1ae3c8afe8f176eea2a7a1dc460b7b47dfeec54bb260d53c00948b941c6f744a447ff5ac; 0x36a491a20a3d7e7797fe1eca31866308f73618ffe7b655945d7fc6d04d7ed1e41cb81de45c55513c2e099ff95c5ed0db0bd662c49414c24e5fad66d246c35086304ecd3223ce2e539ba7c9fa; 0x5a31c7dff79b76248d14b6007250d42b307135df04f91b8fa66d43e68bddd3080a8e2734953323fcd5e6266e2a3b6315694b3396bfb0bfa30581aa390fdc38f601fbcc904b35e227f49d8c87; 0x2535c3cfc421c02fedafb49a5b49c8a37489d5f684e84487392c6840e485f6363e4f8efbeecf007189ccd6f56d271f3341650b431a14974e7081b22873b0a163a2917391c3fb64777d80c888; 0x7d1b8a2a082fdde59a0d85049e3e5f3e1a88acb6beef273847ff4d9d46cc9190c3f6bb3dd77da812ee59ea886ed6850b27910a3ef630af4b668d7e4d054761a8cd6a989933b255e7c9b48b39; 0x658e225f5f18e696a63817622bff383889127c3e7354d8239a9c2c307f4954e343793f579d3d8215dc47b9ae1d2ba3a64829d7d0a925b964b993479664ab09fe03413161ac5771ef130a5ccb; 0x6cd42e4a818058b4ef171326367515f8f5bf4cf379b5ee6deaf26588b65fb15bb41cca8b466fe440dc407e5eeba9b60bae010ba24bcaa121fb932afe261fc8762ed3cade588c1f531d850353; 0x55379dc6257ac87758146d5165afebb7f594adae59cbe56699bb9663fe9780bdfa8d066bd9e70e755b2baa99f816106aac488fe7878722c786d22ba29601a485350e21a435d1e45b75b9322b; 0x3e68f03bf32332fd94a356e22a91ac7451d106536bffc5e030bade4542a6fc0874d786332881824a424a7f9eafa8843e663394a681b087e40505aee0d3e6b495fc12ff27b59c7c731926791d; 0x50b04b95c62eaf04bfc2479e450c5f33c29dbd6e10f385db2393f8e31e18ce623100ce10ebbe86161d8aedb5e20ad40ea5222023ddc36ad5ecd3ec057b2e4bbb4a6955fc0a475d3fb55303c; 0x2baeb23597c81df000d33a72fe1eddd987f571a23b86b4e38db8026ccc393e684557f2a57c1408e99f5ff35599229f61e08527d86083717992d9b87c1984a33bd61e497b4c33a428b464fccc; 0x166732599dbc358af6e7f4a9a43353116e6f3e98123d2ffb274a2f0f7de0e652068bb7ab134de671f60704201f0c870a3b75a37dd6eb0487f6e0bfc6e8cc286b651cafe1eff50609696e1ef1; 0x213afa80de5cec1b3b426ca9819b0913656b1fcc8344ed4f580b712e412ccf0c1c43771cab09805580a61cd7d51da2c00759d927ca2bb55b2cf9bbe55001dfc942cb914de25ca78ad696bfeb; 0x46b28b7b9b4e4d46f261e9c83a90d81fb2cafd442afd2357b74d587f9b9ec2a41901393e8cb167bacedf57c7b00399cd95fd0af1753fcc0dd5ed14183d7ff7d55f2cc12fd56253a087241f31; 0x41870b1334be6a1a3d609443a38409845523b51bd09190946dc93f8572982d6af0e98098b50b515eb627437bcef53908ca4ea7021a8072114c22bfd83c7868e093245619ad80102250ed7629; 0x671a9e991285738efefca0ec6792adba660c4360abe786152b6b4bb173819ffd1d3ecbe60c8941816ffe1c7b1c22496758eaf2d0b8181528c02029d8e421c20d833c1d77653ec2906748f6fb; 0x459e8d0b136b6a505cda93f9e97938b1c75c7d05eb27d53fbdd31ee8225a489e1d0fc5d70582ddf9ba35bc0b260f0d6d6b95f739ffea6a1f621aeab1829d7b75d689edbeda80c0c0346a241f; 0x4f242e31e820541d490173d991028aef90bdb0bb2853b82210055b95d388772e919544afc13bb2d92fd67fdf46001fd7c6d8113ad94650db90c1074340cf14c32d13c38fe5d232024a590487; 0x6b2779d4328151bd3c7e53f34bbf2934f0d8781f32b5be99595ebc925dccd261b4b43b4d7ac4af1f80552c91d629e3891e5f63cc8250e786be3c887b784e1cf6a089647c68a6e04120901494; 0x2c1fce00f21f35ca8049443a32a5616534cd1911b8ffbeba53e62dbdef6d5bc9f4a5b77f7329a4f242eaaf35fe7646de8e5343418e54b161db7342f2cf0336cfaedfefe223b9bd9b9f0943bd; 0x11ea98a662a810803d40f917c1a93ff68c57849df265f8c101c4e18d1eaefa5745e5343141598ab631a348bb2ac871ccd5b3c645ecb9caa104df83218c7b2818ac14f6d0667e40e6bc447c16; 0x6073471439fd40619a15b2c961c8b2a4c18dfaf77802766c986544f3d46742b4c0f02f19031e485c1ed602056c7d0b8fdd83d3a3a7c4687f6844c3768f016285b70b366da0b5867aa995569; 0x2d6e07c8d5b7fc6e2322c7263cc5138b12255a66a314bc308964a0f01c2c7ea5aa049af470f73b80c88aacce0e7ff06021f5e64130146e042ede7304280f22c887de530095889238a83fef; 0x3101eaec4b33b16dc14616448fbde717b76ac9dff7db7737d8f6d333802773ca201f3f45024b57a095f55286c5de4982c74f6b7f4e5db847ecc764a4050fe2d6e6bf851d3624e5a949581f7e; 0x25fe08d4a140e178b431b81881ec11693be88f4bdfa9059e089975b04154ac7e23493588725a1a3b3e0c366b6f20057d31bff3db971c9224397976aa5d78e9066f5da1fee56b5d7fe9b6d374; 0x69ac7510e3c29477ce04f2fabdd9e531989839a29e4be76db27e7e838c0e28742fe13630ab17717d9cef7168645549ce227724f595df75808b6546a1302d94ce175f3d08c547bb6c87ebfac5; 0x7f1c416eea4c4bf79de32f34b752a19e274eb1ba7d9c7e6389eda1ec4b2726a392dc34014815ae2ae80fba61d0402ecef05ba6c445281743845904b6c89938c5cc9a1c9e2b3b3066d638884; 0x45f6bd3c38602447378224b81574c99f4662a0293dd5ff8921db9b2a95155ff633c1c3d85350c9a2ff7a3463427e774e95b9d1e61420f25c44d4f7a1feef4c6c0ae950c6ef75157c8db915e9; 0xe834d989720d6e49cf604e09a391ed2c01d94f74a8cb607166667f47d2e6b4d1fda2e9770d5395cc682b17dc0d3861fc26b3b4b23c86cd7027e3f29201ce0ec00db0e54870153446b5b8ac8; 0x63dffd819b9e8c79a7b1177932a11ce0bc9fce8da84aa03161256307b18885f4815396bcecc7966b2a5d99804111e18acc46eceec7c236a171a8ee8de1dbb89ff99d698aeaa72959245844f7; 0x5ab579ec3b0840837ff83bc3408f861f21b26327b1fb6269c8aaf8f43ccce69b5314a749bf73ad475848339907b77a3457ddcc06a432970534158fc33536e4e03dc24d2d5865e6eadfe32015; 0x3cd05fa32cd0b673b24cf4e06d291cf2828747f52f117863c89294b8e0600ff2e4cae6b323c4a6d5d98232d52b849049f3525a54611d6d8171bfca7773f51cb7e4d5aa11763754b332c114c3; 0x7257def010af21b3d253aa0a883747c697fc60f358d52a95f878cd2a861fc8ff30b88798d61e96dfa90a5540a2b39ca9924483a09382343a9727057a17d878310fd47a702653c0291a36f917; 0x7c886136206895067ecdc7667d5120dab56099572027ba8d1dbff37c6da4e658a621f71dfda279f77792d2d8f6bbd00c22cb4038d41ce9fda7f9711cf5a605dbce45a4372b39863fa1f7ceb7; 0x50e9a54e536bf9a262d6ea6ca816e2bc0a0d3ed8318781ff5aaa6a59008d0851e8122fcfa74e526a196de0315e7ba6a0145801cbaec1da70496d55a164c732d0b9db968e9b232cfb8a7075cf; 0x60fbfc4c496d73ce26ac27d15b695aea042182a05d0ff0508ec4d72d58641e3d6472adb4a0b2ac8d0722286cb59e015568f9d4737cf9e4ebc1ca50e7283e070a5dde734f6841886d5e3f40fb; 0x48d444deab9a432e1b749b5716800e7226c5ae6f9199e10047a5128a666d136a9f6fff4a13c18346e7d5a9d9d1442511341b0bfdbf4090e827ad134bf26385268def3f87694d7e6b5e59c1a9; 0x5f9b232f0625043b8076ea205776e8b9278c27ce97de76cc1c4f0470777a08a99a96b8383a97f528c4a7dc061c7242ed1ba13849f6a9bc71e25915db9486860c05cf42ccda476a6a5f219f46; 0x97b7ce73db8dd0f2cbe3bb6e98699f79064cb9ab04c4dfc174ec02626ecd250ddf350ddb6945a500fe7b1c39f9cfa05d61c1c5f57edb5eafb0c9e55aee74f46ff3c1186d3be061a2f694098; 0xb80469474c68c57b65c6572490522ffb14f13a0580d790e8d44d9495cce809aaa310fea3af837e46c26e2b5cfaf41dd87d834026df74de16d5ce9ab68bc88e68c619f948c213f0305f6d620; 0x18e52fd56744878a5d4d730d4872f9e284eec0b10c2109b7ac599a3b2c5de5373166007983840396ab6186d8ec4ad2719881c5e9fcd1f0da363fb07f29706fc141163691b94a46e91c8831c5; 0x14cc60ee56bc497ab8e6ba41e71d17c8ea227195997d915af68306bf9fdceb3104b0ec7ab02f18ba7877b79bcec8867cb8fda484fa071695cff73f3823bb8378b3bde78786374f84ff466e79; 0x2a6a88f122c952eff4a791a0c248ec63110647b802ba0307b0c16dc0a614b09b8a4467f75af98c275b12ca09d2a9008c6ceb0e9c4039cf1988f6d3df49435e270bb25cb26162c8162d7783e8; 0x766ef23ca5045927e86860a97e21c4bc429a258d43a03a57ac09d8b6025620bf942116a495ae7a49f268702f9282959d9f384a07453c7d6de10ae25a63cd78c15758dd53ea4bd30e3104c82d; 0x62e223fd6ccbae07f30ba2788bcd918a22824fe3937573e9b067b2f357d61253630d2deb85960f0af0de6fded0cf70b7124b0817fe676a28517e7b04605b57f45e9084cbf4f38de333e49c3e; 0x5ae2d040b45f006259514a6c8f3b237c38fd71646fa024287ba757961c860e7b75275c6b79dcd950e8f8e002b6c417c642af5f26e0269a13c25b1ff7c3c810df8a1ecd73b85c9ff694633ffb; 0x45779432191f72a46b0ef0b5c84fb3746b5235014124d7f4258a31d25d0596349226a4795f22e243e345cb2afb7ee8fca17158f9738374769651502efe8142eb479b06376f544e97e2508267; 0x49cd54efbb7d178d1ee7a298f42494548862897114dc9eb943fe50e935299f90f5ccfa6ddcd5f0e1ca4355de55b7c74239a78fac04c55624c1809851c0e65492dbe8b275d3b0498fe46337ab; 0x4840dd9a37a37c44796d95b927b006bac8f2b514bd38635eec69d06f9910579574714585d12efd6aa64719c2ee3c6ec2f5d8ca93e8824504cf746a254b5356dedd9108b0abb5d1ecfcd75605; 0x4c5eb13395c374087a92250350bdaa79e721d53125d358581c4789d613e6d7d68edb50f6e6249bc011db6707b4f140784f15a6d041743f6293c34a8025ece4d083e28982cc12e0385e976ea2; 0x6d0441bdf0f829003ca377a2724bbb72bfe2fb56d67605200800aac49756c605d0e8436e52c7577c4382a96826bd607a441cba316631fb62bfe3ebc03e2dc5725ca8d76f3045da01377785b7; 0x51b855f727e46497f6cbe7536dd8499cc264a6b26280033a0f9cde7f2820938ce3c1d670b189f495af310e2b9d64a11f2bc81b46f7abbe7e2c88cd8a0688191dbc6171eb96e52118ec40b117; 0x72160916560703a9c76757d4200a8facdafb317bfe40bc44082ac05eba36adbfe3e6810d3d1426aa4b3d63f31bf3d7067f700f4f71c6b12ff808c7b74a077a91640d46661af5ca6dbd51f8d9; 0x652ee44a5da1b7c180ac56ce1604b43ef73845040421a97e4f216017f93f94d3f883ba834b6576db96c8fbd327cd28f4ddf893bbafffa7d9dafc9d98192ee7df2fe32c7e18043ec47593b1a0; 0x112a52ca562c3f2e607b92a13e8d8ddb5e09c34f0bf0ef765a0ffd0ff3b086048e4c926556a18bb8cb229a9605abfedb064d7faafc9089e673ec92310a6f018030d2a9d1f45987192f4be57d; 0x347c18201ef097e89b4a42db01fbf9a0b6ad379c29b17f15748b83a36f0eeb704e6065548c868d410f9464dbd4930f0d935ab6388abdf7e82b58a3f5d215089e60a11c3696fd18ae5ae30310; 0x701737f02d3108f828cff54aa90779bf35f4c55b623dd4acc9e6022726554eb3293de5726fc849009ed97a20c2c3be4cf4a89ea5507ee73f8d6e806b7ac4e9b85ae20e63667bd90da37a4626; 0x58f2a870939057a2e6ef174a38c5138b991c01a16c15f30303bf5258739f3f31e600248e92e9ab44ddf385e8ecc64ec2a4c3d3f9a21cba9d70610295d333c409aa538305323a56004ed54d3e; 0x32b82222f271e6e1c7f9e4bdef2839ec60b6097cd742d6167b741f1bfafd99045e60f786a1ad44f3e6cc674b8ff01a325eedf2ef9bc4fe7858af0ba90f8670dd86c4759c14f2f5d963e9868; 0x2a0ede9fbcc74cece4b2ec9a45d64586071b363e7ad21adc781ba7d3ef89acbb7c03aef592ba22255ae90d14a3029e171eb33e642bc7a59821013fffc2874d488f90c919c8e5bdd45cdda0a8; 0x69d9e2faf34e6453f3a1ea20f6cd21d92d736e9efb81370877c9f063930530d06f1b2d10667fbc946926ce937f76cbebfca01d46fba6d9e59c3daf9aa96c2ed35e0045a12944a45e8661c579; 0x880cda316bc28b2be8ee2960323975fa2874a901aab13dafcfd5257b3ef6e365f1d8b02793bb8fc3873a7e0e74d3a5a58b146afd6c8764f1e1b6cc5122ac47f297695ee91d6bbdc16644e1f; 0x23fd0d88c7c84b4a904c371d73134a5ff8861a164c55ba78e5f16a7c5e180a44055180f22e38d9d29c08ab88c6dd68c475750238a04446746ceae5336ed93fbd1e7a6a5cbfb740303bdc61a5; 0x1730e22f9ec18232960216780904d18505de90d726f1a0dfb9d797d99e0bfcdffa4ad31d6a7cda52fd85586887edf59335a1886fb0a5272fb22c07c18a7f767c6cefc89fcc17965c98a18e0a; 0x66985fba3f9b1ccfc53bf390ddfd06b32d4419345e2b9eec4defc3ee10aa880a08c48799b82f7cc8416c26d6cf60c6093fd1f0545090b575afbc1f451fd6ccac9f1f8a6cc6857e5818eec0ef; 0xd7c81019b1ec5a03ff6a3743d847f5076fa22f338275d072754d90402cd78c1dc44b7a319fb541b7f99d01c80acd9e68f8709aba834a54f57bdcb7f0f38cf74c3006deb8424317df88b90a3; 0x5e08dd5fa31b34713b33084ff8e5b278dad7c60aa11c75a2d73d5edd75a72ff754d6b3688ff49c9d35b67fe73bb8a4b80e2455d8cbe460ae6a732870e9235148881a5686ecdd4e0ddff8893b; 0x772e300a1e4bc26698ce0a32ea0abcbcea9cf1a424fa2d2cf13b608088a20d6185213f04e8970ad27ce4292c5cef6ac5f97f584aad1885975373ec739ee279b1b23e4457480202805f4b2366; 0x1e5577a6b43746b4f3445f9131e057a655e003290b713aca5db351766f87ea2e5e5c200bdb773dde92c398ec97c8b35c0d4a6c6c262e4a069d0592562a82007daa348e6b4c70cfe2d468f5f4; 0x286212b302d267be59d21995a87cd748174eb278e87830f2a47cfaf344c911e69c2b86d04a368c1483d620326e1868de989f2837bb80901650db52894f083998667fd4108e9ebc810665cfe6; 0x481bd88bb2fd62a70907b77b33bff67ff31772d985876572dca76dc9b5aea3d8fddb7d8a11467a71059bc1237ff0ccd828a6cc6ddeda78f697a88c85fba95ef6e84e2bd8b9d9b6fe954564dd; 0x529f0ea90b5aeb671a46cb7983f91d7d7f2b26f284838ad97dfbc2739d43d179cb2a18fa963a3da9846a595d9e64e0c7e181603ae84eec9a4f0cce27dfad12832530bf5f6add73ebc99c69f3; 0x7ba8fabd3202d930b6acfa38124335a2130348a218d4d9c54f8c3846841f088ce8f33421d950b49f28bd2b139d4b7004337305eca1b44f0f92a5f129b6ec0e4217dae1122ca8db8473c81038; 0x7b9e2da4982e814398d48e367f8ac5528d741fabd6714562bb2f3e408077b48a7ea199379ccf1ed8fff0c688675d2e0b3b7ef3bfb5686f0d99bf93a67313dead47ba6c2989a269afd416703d; 0x7cb653856c07c465759c668972f9e3d930ccd9f1b856e5c7e0142d56601e3a6b73de8b65e23e6a7aa3003a6679f84a50d2651c1de7236cf14a8a1669c2c5ad47f8b3842a2a874ffbd2029fd8; 0x1110b405eab9039fff2f1e50944d7caa39cd7f569059231ef08499546fa1795822b80faf693acce83246c15f6351ca055ac5417364a7a8917d5f8704c339e632d6f7188c9123bd0f1656698f; 0xd27b60e1814b1b6e4f1851f7612eb6081cf8717d080826d66ddb2c84d6b9f1cfe8f5e583bb65ba30acfaa9131e380dae93f9db0db5fe51bc10faa1844f5a51a39d8a967825897c1fd9bde13; 0x57315f80ebbd567a9deaba888ed865b5303d9db7c09420727a017dfff311b488826128efaf8424dc350dc9518b9d6dd377945a3908750f5f85bf8f7c914e080a909bf7584bbcf58453e389d6; 0x550c730a5af37b74800fb19757d58ada0584e0184704abf41beac36c8a21b4ecfd44a2b0fee958afd6068d14470abac37944687126ba2e1271a7203c1f0a84d7c78c34a4e23fb08a2ceca195; 0x35b5c7dda29e0c06fbd1a47398cfafc568cb5680006f91fc99badacbeb7e9107941f715b0597d955ce753e0c932b5d9e17a0603a82e62aeabd396682fa213e9f357954ebd799b879201f7567; 0x3df655278cfc7fa7f731bc126705118bcac3cadc87104cae8d73ddf9f5b91839c0f2689b50012e470a28bb278351b27d28482240c54d803159f69fd906d1dfdefcd69a57e8edd050a0fd38fa; 0x5c46afb2f5b1a4b3ff300e118b009bc7ee79b23513b37a646de537462de4cd00ec5c1bc18300552c321091dfb6d74ead4571aa659c43b585e683f958dfcc95a0aa9746516f01e3ddd3c72441; 0x60af520f71327e9f671d1532168fc535812a546f1adca22ca8fce0a2745dc5876f423a7154dc6b14005aa551454cde1485155a4278253a4fa4ad7988196f57e3db35dcc67839faeb163ca270; 0x440b1f75cc36821be0a9c4c090f246ea098d500412392b1f34e28869697d58b923ea8e15972a7d4f6870d068e34b702d522581d8cb0c311a64009767d896d0782b894e6ede58fc81fc4ba7fa; 0x48a0043c4fa9d293644d8e5452d28ea1e366579691b491dae2c13b1b4cdd2384ee7cadb1934bdde34a5e97c6ba84082ffdf8d589d93d20e12623986d55d836b827feef46bdf26c9b09341ff4; 0x1d20ca302caea67a5a17b6618d5d9d2820f9fca8b52b55cd5e7be911773eb3c058d8c0e2e7053a3a16db63eb9d0ee65519c571b8de07a0d788588784d21c120fb3ef64c46d9fb906f8d2ce25; 0x2e59f7abb6a1b5dbf21d71dc96c505584d7c6d40ec60fde67c6353aeaca285c1f51f40367312add2f42af677c5b3e6a0c8883ab2dc50f8ebbc0bbedf4193afc2761a165d528b7abce12f8cba; 0x72e5b4a58ac5b3f550efe410abdea98af6c664d329f68211a530f4c6af0bb2427f9b6fd4a75367e0d95fc4690864e6696df089d067672ff6df68c88e26856c71c84595257e8c8f91750a20be; 0x6d3d62e30e5e1142c6e09070026109d9a6808377ed43fb933c66ae9b041e5f94f48e6e1c3d356dbbb71ce84c512ef16dc53bd1536d8cbb507e47263b2320e7fa9e11975d9f53c926ab66e436; 0x6e1c5707879d03edb158e17b11828917415b28c7f175a17fe0e8bce6dc7829118b03c7bb8a6cf0b81eb95074485b231e12c40dd73828c7ae20e46439b1b6804d01c664f77de53e55ad79af70; 0x491bc43526a39b163a676b21e676faa4989d4eaddfdc1e5636d4dcaaf65cf5a8b95adab2741a774ed7d3597c3ae46454e809df6475b667407ebc0dd1442cd023af36416284c3a0c8256818a0; 0x40deff98f284f0ed4792fc501fd7a9d745a9f9f7dd60f2e9e8f7bac0ac08413e30a80d6d42501162cf7bd2a59ee9086af118217ba8ae8538d085402c566bac76147d5870d5c42a502125f247; 0x1136c4b7568dbff9dc879c6824e7d2e2d7a43c537c75cddd6c2f2ea7e7eede3e2810fcdbc62abbf62a174b865a0f46562fcd3304c9d2929753df4909afd263cf6b658a9151204a2fea30bb43; 0x12881af06ef5314f1ea8a18bba8072d788dc5880d4e4a8462e67b412cbc4cdf67cb77f1a606f02f7e760bce3b6e3e4bf221c6bd8112c146f16ef8388882d3020f14314fac08e8933b84ca56d; 0x6eadc60f05f6420901c302125a623b166663a95fbec2184008c83933c397ed4d4fec066555e320d48cc15d2f984e07c244cc4949f185816d08d3aa05a7d9cb19aefce74726774cce2a39b844; 0x794222d7922eaa3cad2d52a3509404bb22b1876e528557de6bb083bdc9f540201562ffad0663519ec6fe3c52975168bd6b4742e955947187082014f6432f0b737f630a64a7a4d0c5dad06f92; 0x32209956ad900c7eb77605e221d7a6585253a67c8033931c10b52e31b149247230851e9ce69707c4753ca1a582a7744af43666a73005c78265708fc7f484e10b992db1e64452959ec95f9f06; 0x2c837081b4ab930ce053f6299eea8a857ebcb59039cddaca5ee65a42a7ba93026fb66b8011cb3134627422cd7d3767e51c258ccf915fe15514a692b0d8229e2241ae1c6dccef2d81e450e5e; 0x7ef67b1d69ad106227b8c37765abc670392ae9e332391121f1c47ae5326c778a363c81304563355035613e8f9a5634c63e46bfa4e9436df374f2e832c805ed1cdfde3a0ef91d5f99f48ffe38; 0x16f2a741dc42134b29cb1ac8b80c86f26de1917a5772f71195be80e1037d772006db76d19786cbd668c66d2a718a82273c30fa2ab9d53dfb4c68d57f1433e849483f06bb041047dee82c4b6f; 0x552d8dd158debd6e3eab6456581ef82900c5edf843e54d0fbd400a4d2a49e72e7cb48547b65e7268e11d18ca24f733a5cabb64bb9bb72785e9c574bba1b523dd45623bcb7be7a37f3b5d4073; 0x564bf80120a2ffceb2a9fd232b0f7f9436b05465e23c6380b8951013f8f2be4da1fd3814ade6c6b14beed94ddb7856538c386e82faed34b7a8a13c4069fa67bdfff70c3999083a5843becc51; 0x38b2fa4cff546089b039471c394921929b0962c3807640be9a09937ce7caba1521ddca496b0b3913edfd84af940789ee96797593a4d866025f99799a1ecb2b82f9458fc09330913158d7c34; 0x22f673c9f04797ed0522a69e25ca05ab02e558d22af39ea42d4796ae331cd365127e4f67704855a1ef1202174b6e4997b44c6659223585df272231bca8c0f56ae2e9c11541547c8728271cb6; 0x388a5f6db8b588be6811ea02462e4139097e63627cc63135c1bc1dd4adcbb9842c47f76ff4fcc59c0068ba2e3b2cd549d3c31cf9ed1fdd45a1aab5cdfe89b2ece5c089265fb3241cf66ea575; 0x80a22aa6b02010665e7d4be6ffc71cfb03fb35a048a5ee27132fba28d13e10702978e5ddcaa683f226c69ce7d9d5450472b17d28a7c9678aaf7bc16bbfdb265382661265882a68600dcc505; 0x543085ee3b1a9beb5b7501bc7d064296113dfa5b67eafb2de7bf0f0a1d0d989dbbde0fd44fc657907f7357187fcf249b8eff7a1c01d5708058087ac057942b8f2adbd1a80aa10b4a515c4e3a; 0x242babdde9f90d5f8ceb50217d54516ae35d5eb05494db1be324293af2ca0d66c0e3c0c268f6021fa8981d4d6c28b021122edaf6e1d3f485df234751321891d7ac3070127c012a4748ff7b91; 0x4b53f260134204cfdeea294ee38eb1f02ec85226de432078d2a2dc2bca4ec4aef4f76652d473cb59855aa2010957e80e5d3f4338fc5268c10eaf50e6422f3e7be082af4d1918bb3afe3e8feb; 0x1b61f6336b04d4b92eca8dd278c826c376a5c6e1dab6f691c402b10f24f2bbba849c984364ba0f27682e2207c6e084858812fc0320dfa1648f0e4d42b56f8f716cd56c7b3d3dc57eba736806; 0x5ed9d35faa33d9075de4b9495a87c7beebad3f85cfd1b13329d087c262d909feedca62a8b9bc9587a7a1d84381e7df9cfecdbee9a950c20d8c60ec70b15a4242f39327bc36d8daeba25b150e; 0x2ef6c11646dee6a72a150fe606142aa7cf878b5339e11e39a377cf5c391c5ee362f14f4822bd97933fd1c51b8f97174c48bff734cde1e4746da33d45f3f17a0c890279f1e7c447d6fac52e70; 0x3c915671b1ae21a0094626a34efb4da0a1134c1196f9261f479401e14a7c60f45be61befb9f71d06a39cca8a9ff7889667e63f7754c5862fb1f2bbbcc771e7bee9ca1a7cc3982eca3e7956cb; 0x1041b172451d919594e48c4262217f5ba6774d7aa2c260dd88ea2cc5a11f738b1da6ec80003b7e60a73590e02205567b47fbcf79f3e010fb5a0788fa08f3ff44bc8a028f9bc2adaa905dfe02; 0x1f80865703c9b6a831d3cad1428352c1f9b3b10a5c0a32d355394305ded4a1d324cd744ac9e2b267894db23c3e32d8b0b49a0d00b4fbf6a738c7715eb6f0f9a47a32dcbad5cfbc48580fd231; 0x5c6eb0c5c219bb58082cd6ab18f03aaa947ad7bfe620b5574d6c5e6698a8ce3f0ec596819e5a77bebdd0830ca31b0f465cabc7cf74ba8f42813382086c75950e2f15ade11603e9fcf54f932c; 0x1229a63b101ad7fe800bf6c23ed997c1b66cae028013d1b9db77c41c0b4d227e016d2c2ba1ba483683c14bfd188d6fce7104c7f931ea334108e64fbecdd1c571f77e0640acf58c6e80b3858b; 0x402d6d0813e0fce04a4af404864f499540baa26fbf678905dfcacf81ecefb489b7e069cc8744b993b443980b6c86adef0f800ca4e43a872759ecc9fcd1ba3703d9a8d5f89ddbc2a699ab6e76; 0x68e52b66a4a3ee64fb436016cbfd2139e64a26beba43d895c2e63bb0b2bb4d2679edf77d59aa365e2cefd5f1ca0ca3e1f726c8c922232e7d2561c9e9d87425fdd4222830008a4d904002c999; 0x1ab907696a37c1681fb8c0aad3e2e21403432efd35841034b45497c722e8ff3198a57428c774be85ebe3b05f5cbee8243581c6763f3a2c44584d1eddfdb4b79932db6d383f0f3823cfffa2b3; 0x6f445a26951776ffb0bef4aa13cf988726f3e403f4d62f7f199a0bac9b57a7ab7667c4d6136272c94c24e4c3e5e81f2d3dc72ca89706f1cbf4fe317ef631b65fb885fb2e08249c8f93e678ef; 0x565cc35adcb0395ceebaf13cdabb1e2a8cfee78165e20deeb55624f2c34210d86df172896795cc6efd94ff766bd8de35094a2b9df7e919979febe2a858b6658e580c47e61c99d7357e5d90af; 0x2e2f9e6d809243e7e4c7016a6e76ffb81434971a468a61ca75f7086f82154cbc01cd0564384b95a7c759fbffb4719d21703ba7c4e3a2a5f1be7d4d66e40765b36bb20035a737ce3b882800e3; 0x6728a63748ec340bba8fc3d8ed21da1bf78ca5596d87f309f45149ed56e170e248d2444611861b259730c4ccbc2680109da49b7ca01c550b434f179108ca3849167a23eafcd0c8505385fbc2; 0x2f7f25ea3da5d2558cf3947ada36646303108a07031c5d35f774055742a2444eb8c8d1249f77af15fd559a73012ca490cc5b437d109d0d032c64fc35cb9bd97462ee93fb6342f2497ae00b26; 0x5cb2ffa5d3913a32fae324094b842810d4f4e730bcccd129a44c9a639739e32a59f4cc907e4f7e5ab88bfc01e9ab0ddbed79c98b1a8cd114f398ee9a851b6a0f840051168be08abaf6016e0a; 0x49e410f220a0a7250de9d7889f3fdc43e401e2a24c2aa1b470fecac17c3680665d89abd3233e636b7d6a5b779ab856549e08fc75a363d4fe6232fc6c96f558b6da3af65120f569d26698c1d2; 0xe2085725b2cea6b545b442654316a3c657c368d98b8c18fd4fd5a96cbac4463ef18f72303cdfdfb33ba5fac84b8f19595887bc158738ab600fe8ff62b09454b598990d46c6bc5b587288731; 0x38b65b142577b38b177d20d60b59b924c443a22ebb3f44b8f9d0ade421634a9f4f530b0870bacdf35226792502e0d95eabea5378dd9f664bda942a572fd4d053ecff7db63a5b30224a143d97; 0x16f4822501bd0edd49d7b359a4436f2393d152823be959cb6546c8c319d9683ff83dfee41484c2e04f5c201a243e67c2941443306bfb0fe97150f6b56efa7263cd351f19bb7128b34a886d1c; 0x7c8d73e144cc50ee89ec5cde3fa6536e4448c880cf040d5e6c27de197c649125995bfcdf5ea7bcd953d2742d585f374271e0206d0f7142e0c6049f61b98d98b1d26faec0f68db58e66baba58; 0x64d5c229c71b41ac1d187e80eeb0c4befb2d8f8e3697d26ecda12c496313054a29fc27ef3226fdd1d44125973a8cba4354327fb0fc46f2971f9ed8f54b184923f389bd83a898565a1a5fcb45; 0x414aa3f75686ead249faa02db6d44092907a5f307a88c99f81f9c32dd744fc7feb0f902fd2ee16a1b8b0aca3a9e3e2e30f23f7b2e75b28668535a19fb6f15a766a0472cb5aac8a6bf11bf2b9; 0x32563383556b57517f66cdf4aa78a43a94f0c0c516ddba15a101406ce0b0939ae3575959189499af83b10a37cc37d4cbc26b00bd179ddf34a2d403ae0a0ffddfcbfb5415b3622a9ce7a119f3; 0x4b7f19ecce28c9e2a275c9de814e01d4a1fabb6da48dffc25552521fbc65531360323904a8d74a8258a843215ce77eead2553a38f8af447440020d0f33ec3ac33532f7397a37409febab995f; 0xc0468695a6e31c07629144a10c37791b988bae0cf62587ab40d79f81b362ca30afdb8de8f79b1a37674ddba981ddc7899c74d22979da484fb973b7865dc3031abc9251ded68d928e4fcf83; 0x2bebb0fca251fdb620e76bce7258f38c94a520721514f8f9f9572c5e55f51431df592e903f8f73b8b0460ed2b68a0dbd989efcdbeff54690dd45fa22cca82087dce2e873b700e04ca09f053b; 0x244c0bf55b5dbb43e2dcf98fbabab3c97d767f29cd12caaca175396bb1c1f52e541f7193cffc6ce33634aa6679df21c830c888024575fbb82ed4c1587a5d7eeaa48d86bd90eb3cc3e936f332; 0x1af2850f2cb3e0cdfa2fe2c66e71b03624efd561f532a2beb9851c38a37274df2b4db4bdca2312f967ff52eaa75b7198614744954fb6b61f9c1f223d495d2f0d15d7423bfc83bab7cb1ba736; 0x1068ef88863328e479030e2fb3c3f91d97a07f60b394bb0054b28c71e77565678aab82bd3b7a64ffb4946b498ef10b557463a2cf3094e92a87046932a63982b998181e6f047c3d4c7b7c87df; 0x6369c069f889f4f2f250d01401682a76df833a7460392940adf98cc084b0ed2c6c22c12b93d54f91372884f42a784a11eb89c873b21a88d52f734780a45fdf3441975542d7b2a9f65a7cc7d1; 0xca077dd67ac1fac0ebd65786a2dc9f5da1030c47487f1cd1a8b99c4eca5a833d7a26f4859e65d8db918775c50424a2b1f106ea82a17e1c6ca1be85f76e1c50691fba106d94860a8e08e086e; 0x33cb999ac98c8fd98321d1b6f3a6238066f0e156010d92d11e71fb5722305fc954c688eced6dfc647b2bc88831fe4d470bee8d6e8d79c3b39ad4aaaf829b823aef585960d4806defe840fe87; 0x4f22226b70754f8a3ce7dc9f3174227874afcdb6a90ebfd12599088af9b2e4886e8a1b89f7d65d0f46013b2acc3b170dcffa5940defb5351e7a2a2e666089589e64fd97f6ab7cf91134c1b64; 0x2a291208939015f49dd3e6931d585f1c87854addc780a6c53db52de03e20708f515967fbfd435fd0d89a178fd9e274a7249fde470aa002e530d3f8f7b08b1c5caca3f151854120ba0f7470c9; 0x6efd641b1902bb7e44fbcf0c4044086597d9bb94c7945c702af057f28c63f955d1a2b946923519a34103640fb5d535d2510c26d048fed3ea001f9c1b9ddbe24d703b02af7331a7f215613d12; 0x50f8565b4387b783145f1f4a9b4363897279e28794742cac5501db7229e4caab87a1a35a43569a2d5ed0adb0e520e634b91c777364f26f09514beefb4667813dc3cd6ce846ac4613603d7fa6; 0x4032fe2291f886ca2201fb4cfb011f7c56772aa54a1fb3928e786108eb91505953a1029459e5fbab4650ca2d645853210a1301da7a8525f12b3c0404fbecf37fb76d547dc2da81699eebd943; 0x22aacb8df563936b5bcf9dafda337ac15bcbfb0e930c8f8d8adb65ebc5370f7efea11f752b9154564ff2b35e8f0ca03aec38f2cd263ea5a9605bea36e5e9bbc52323f9f569ff1eeca2b85537; 0x772250d9be190fca79f0cfded4e7902eb2b30e9d6c78e1ce9869403c2773478019aef7e7175fdd3f4f249bdd42fb54196a986b20b0743605c193243a16f793e01abf222b01f2312aff7c24c2; 0x5edb647252de0791b16d6cd27d004b03cd6170c6bf24e4610b287fabea939cfc12d0da2b8ceff2259c798cce091b25decfc680775dec0b05044a39fc40907ac01dbf77ea955e5301089714f6; 0x21b768fae8b9fb827c8d5296ba5328ffc79fedbc06f13679e697f21e3693cdf8cb286286209cf3c1cfb304abaf6d06178cd7854cda60182565c5b1e616ff8a8e4a62da635ab13f5d514cc134; 0x2811dc14efccca28558aa376c08bb967cab7169462fbacb5fb5704e3e1c21d2cfaa3e266941cc1318b85c4c5acea846773d057f31360cfeaa8fb4147ed5693a81c328bd460458028b0070038; 0x3b3c0074f2571178030599f956eeaea16699e8fd22c194429c0340fff42f4cfe105e6b61e39e5a0153fc8f0a0a8a28ea33aade18ea8997e370ff3b77f8b732206e13d672097d41d94e7efbfd; 0x79e0d16392ac711a6e587c27669218c9d20bd955d2b7710634ef3edaa663c2c19584cdb0be297e84595ec46dee61b239fb4290997ff0c3d85f99dfa230a6d38a32f9b50e8b8a7da0afc88e02; 0x2c30484e9101de787fede233408088e9711df3d358320b630840cdeb60b779060bd7c176c9b31b4644ff9788022460bc02393141775196f2f89acf8f2be8c37afbaa62623deb9f50fd00c896; 0x70b32e781802e01000821508c1fbebb9c2edaa6c92f36f877e1f7e3eed9da639bf7db54d95c9390eb479770e7f20b5418da1e66370ebf521770c63d3e9e30648570d19882410cac3ea2429bc; 0x5b87078732a69c97c89a7b38ca8f323171e93a76bf9089c9c1aa9589a9e6cf422cb7c31a54b9aa6be6eb99ae3eb8a3094e4f3f46c860e09c2ba2014f940db1f6bc8b0a6e0f990d3a240919b9; 0x67595755ad4dfdd8cf373b22b9d8e34d16967b7795964013f52ca5175e9fb4b99fd7081697910a289b23740dd84c7ea115d6814ba8312dbfc737f0965a2a8d7646fa98c6ab856b3498e7845f; 0x2943e7d4c4ea084511d1d7e48d82e3122c13003345b59886eefa7d2b099aedebe930930985214e8640e2e821a45a380e5559baa2374544cf53a97505336a7ada12625a7e9caa4f20d0434199; 0x69b49921670bb25bf408221c0808fa55b007698af181d17e97507db24fad016eba04f971caf8ef219ae2eae91bbc065dd2375778de82bfa80770014dd7cceeabdd58cc158024afbdac9bb404; 0x282bc74b02750a6484fdf2f9ff0ea417afe6ffd2e3cc491ab229f5da80fde1a06275d5c30f65d50904ff010dade5d6f77caccdb1821966eb9093dca613abe58c42c716140e62ca696d45f5ce; 0x2fbb6a847d1cdcf85a074a3cf44bbb18490fa96259aed2abee2939ba89b276f4a98d122696b837e3c38561d03b074d2563df0868147632cdcf99daf16df3ad027ccff53f0b723e1f360b177e; 0x36e0e9ef1a763547b036256592c27f75e19c85800dd275a9c69c40ff5d2a243fae7ed7ff7911bbf57676e2c5b07c54865ad0017898ee0ab4876872eb344e66ba4441a7eaa05a54dca2676c82; 0x3fdd150245219b3927ea5c2806df91ebe37e6becff6b44f504f4459ad0fa3f0de36c741c2b81aa21d4fe666d4c3a8b4e383f23807007a719e0573e61cf9be062ceaa32a0fbdc99d2a9359fe8; 0x2080eeeb74f7f191b1c3ddfb3b58c294e48918325dc6989d19e8381b83537c232634ed49a1b69a8830e685a5803a653cbcd69b1d17b25a6f61a2f25c3e5110857db52d7b3a84ae7df2602fe6; 0x246f66646779db42afd38fd4133bfc910ba91d1684a6371c1ac7b801ab0cacb543440566ea4c7ec4dd3bcd899796d80eba645cdf596a55d8d4b62505b30bfac98f8c5f1e224806d8efbb4d47; 0x1ec3d883627228668d01885cf6e41e08b05b69011d13fd369e6d52014f6a54c0ca6ff08ce2217ed8a60bb4c2586a2f1cb31a24b43beb88cf6b74bb37f3d5c15a1d455bfa62d8efe8bcca85f1; 0x512a5ebd7c649141409e579da4ede062a632e6a33cc27a865f0e6b98dafd172639ff1ea08fffc20e10534dbb3d09c0d948d718ab221c7aa0d1dfebd131e7be035c0ca34485f19788253445d5; 0x2de7b573ece2415bffe3cb400eef9d6303a03207a2fd0cc78849bc7df385de92c048774c2a61eb2f82e39537d8ad0ce8483d793548330978a130453a322f822f442ad4f2f4e8d5f948455c54; 0x678ea9daddb7e528424a8a3913a0ee385b06b9625c50e3bd1334bf429b3c0bca97e2bf2d7dbe3a72f357a1a941d044905db4f2c3fd33ff0bc41a513b3ca63b310f937697dd358923685aed5b; 0x3919829d23a78bb9919037f0e3c4e9d7588726572c1ff61d1ccb8f15d652b2bd21f192e96fbc49225b0aead475a6f8e1eaca3fc378ef38510e0798e60c425214360385c8d76d4811793d4c7e; 0x44682358b74296d7613513aff63cd89dbd4154c61ecbe04910ea804e826434d0806c6d6b5668fee310399d41bed2f47bd816ca32803f4d7604bbfeb805cdb650ad7070139e1a2cd1f2d88d9a; 0x6ee13c844b96c67279f2683f3653edf478283e91619bd006d5d7d66b23227b4c7495402743206c77a6da2e7aac17d00b04208902b6e1ecbdb7aa5f0a7c6abfa2e66e6416464c17747fc2f964; 0x54b852c2d9c90cb16ea65fdb424443d7032b2dd66cabb06aadd7eeea72d1c2cd8da4ecd2c197030bca3073c46535bc96066adb62bcac9e803b72edfb5518b8262edfd34cc696d9e78e31e196; 0x540c34a26a2e4598c43364ceec4de761488f1198406bd4df7c4a75a99611a2893d6b082f3927d40a5cff29a25fb8bfc35fe2a8b129dcdbd545726ce1cb834d499414fc0038f8a74b4dd06baa; 0x43d5ca6e1745993e770b147665ec9f10ca8c8c76652be43f41e4a80a9fcfb82d116a9f0ba6189b6d27ad47452bbd7b07d235bc65fbe23e89be4ee7d23ae434f6bfa1f85a596ae6eec3d460be; 0x6ff26055f4e38562d2ec403bd4421b7ce4dbff5fbde09521645f5e5ace365246def3af508b0d2273fb2ecc642e64d67e6398716ace89cb9a5bf9acd38cebdca44fdcb04e17abbfb123d05850; 0x3a65a74658ae8019f1e8624bf65dabf5dec79d7f7a47c9f516af9e8927238fdc69c7ed4215becb6e3139e3b7da421b3cecb640b6f478ad09bcec4158d1917c226cb439bb1475ab76c596528e; 0x75dd2f6b195d64b005c369307ddde9a4bbb7d8659807e88dfe3724e63b4e7e32b26fb477a2667b55c0cc64ac2e1d89b93b63509610615a16e35b6a7c39be0fbaec72c101fdb245ae49463c64; 0x627db67d18591c4d3e215ca00e83335410a80a31b193ac4ea40ca18c2fe59aff0d727acc2414c0905500fd6a80091635140a3d93a4eef41fc3bb1dc66457513a38a8cec3428d1bf93ff65746; 0x11aa9d275014ee1ce2f74e4fa0a51068c2dbe6f9d75b20c481b667c9639f9804c4b479ded98aea6c593a3e28aeb8193692fc1195ad6b8f54cefaff25523b5c7f3f66672a4c4e4249cdd21fc9; 0x4c2806eb4707931cff7a6ea38882c0eae0e8a6dbb2b669e673a80a8b63beca517ce500f9f0537e96c0308b888dc65e6cc2323ab91354a75e01b3da95b453a991d73ee387e32ec056d92bc135; 0x1d5cadd41bc0b506055b956203eadf8448d40c1a411a0823bb1328ce9ddddbc882b6aaf479edc2b6652b35430b28067807792589fa3bbaabca84855a778097b21ccdaf4e5e76bb393923804d; 0x4ce5225428c610a7b71c70d40dc995344df431b5be36fec26cb39c58d1d6fbec0a9f95a14e7c07db12b7349ec35eb25d4fa7ba8e953860bc381f03bb56c659043318f80ad0b0af240a520ef; 0x42df0980e3b5d0abbc6f55379247e5efc9a607c275eb1630655028cc7a692d7f1b6ce041e3ee10e6e212d7b7af11c826eb85c208827049caf04b176206fd744d7a1d040584f4b7483c77fc5c; 0x78e2b6fdf3c5fe855f254a1ac80e05905bbe001c57018c3e0d0a2bb1fe8efd703872ba11017c732fe37c34fd668fb4dcf6522d1c840cda27fd235b979fa1a3e76bd31a09663072d02fc3982b; 0x11f83b575923fdc26a253c5058bf4df2969550399c3dd621f6c258152f64af699652647250fd0a6abb5d52ae1192d217510af1a975f3506a35003bb1f1d896f599e5bec957e11ead65bb3f18; 0x49b462d738752ef37cfcc5bbb7a0b78e38a9fc087e3809cf7ddeb96f61e7bbeeadc7e3711ee91cd6526234d050cd7f66a7a9340048285a8e54b70a0c3a1a9bf8abf7dea9fd823fa037188e61; 0x9a62eb37276ee94947cce92da4d072d069a50b4d95ba4549e5f56fa2426a8b704bc010b02937618948cf0902dfb1d2949950ad410faf371c8d42aeab580e0cd4ff9924b31ec73b3c44bf304; 0x2dc2f758a8c8370f89fe0c2cacd06873e060e1e75d4c7d664f80d721790e5c46d932bd0802865d9ca86f53d0b4dde162a3b6f3f45248612fc1b66165b422a3831a0c1bb8561861c1c7dea774; 0x1146d6985f7660ef42ebffc43d2690a60e22a00b9861fe8af8f3e3660dc44f1217619ca01d52316d4d71beae61949d636084b6f3502afd743dbcacc78b4b791c7b89b621f9ef99a09f347efa; 0x30e2ea81eba70cb00e1bc87391872f8bba5742e79b37efb15acf4f1b19a1da3d82cbc50ecb350708a265186cdb6d5761bc4407b9ab485920ef67d795c7d5cbaad498d36cb7a900a6d6ee1364; 0x7d252e91a7dd5b30a6931e6df8660d725df36de957c1d9bf5877c90049713bdd4f76d7a841d850e8044ddb0f5d5f20ec859f3c06e760eb6b316446258e9307372f8c6469b8a74a4ffe8b4191; 0x4098f8893688fcaac6047e84397a485e58fb8a6ac00f7b970b6409419f69eb9d71e9d5d1cd9a1ac6423000538caa25e4d7a1f5d90fae7a850300592179debfb9bfe495734c72be0850b4e632; 0x7fe9bbc4460c00fe0165d4e8d342f5ebd94d1f0a1846b9876692f453a52fc2278579a6ef5f9044d54f267ecdaf2408be35138b11ab954c37d8ba7e09d0a702c3a0f8bc068a27aa66f72f6753; 0x41437ab68f36f4d6c7592c86807da4e2398474f4d8d0d012777ceee4afc079238ed2ffcbe76dddc06431c8d8ad4748b397c6cf3f7a213aed68de70ddecbe8cd1f98d4d8850895f49561413d5; 0x559f1d1f322a8f7e0549ac89bec02785fc482a061fa137f2d2864697ac35735261f0539b8c8f2c0bfc138b95ec16425a411ef7853c2a05ceef69ed6a55bb05fa3a1c6dcd39daa99b018cb061; 0x1666040f1a78de645d5407975d1e8d38a70fd0183a4165f5c9e0989ea8eecb5539ee694b3d7b601cf71f07666a97169c04d1cef85c32bcf5c8021e42e3fb344f7a4da88f2d3c658f02392889; 0x6cb441dca83c9f3a01db4e00c680d81ad79de0e3913420106d5cecfbc392c18b839a463206649f77d3dd84ce53c1f286351f9ad362d942bf653ae54da5822d45ed0a5a6613da5357b42c364c; 0x5d3877d70cdac1d09662f37dd030fb9fdbbcb9d5608a6a229551c1325e58bdb787023d4e6f29a4172068ab40176073a58ac401b19b3cce476dc20d3c141c93a86de197ec08c252bcd095043e; 0x4cb52154552826cc65091d47c31004672de010a9693f43f69dc9245313d99edbf63ea98793311e857c75ab2775328709a3dbb271b891de683892455fe97f78b9832b27fc656aa1b3d4300461; 0x66aa70e782f1b1292e91bed133191bdf110f94b95a684b02c1eeaaf74d7d66eb0f44c155086485a49316420c41309c0c33600357181c1512ef6fe9819775d46eaaa4c89de6a2d5372a76d879; 0x4d46ab799aea99f1f5988a30b7f83987970663f42854e19be0a30bb30b778c123adc63de00ff5731cf9f70b7412d26d49f218786286c4ecbb71f0c69bc13abc049f469dc7d9d5890b83082f1; 0x66b6f81376943aac111968cc939e88c3021bc378dbdb00ce32a6a1262a4095d8b7a1a786122e6cb0e33ea5eaef3a36c658d688948a93c502b98d0290871ef959be9985d4153559c449e6ec12; 0x30cf1e4e108091996ef463c1a5789e79ed5205a08fef9ef332bc1ff2184701de8359ae2e0aec34e822d81db26db7aed2802108dacf48fb63aa96515f9f609fffaa3fc73a621468d964c3bff; 0xe6cad2729c2dda2905d72cd94e13c6fe12a365c4b23489ac8a95f9d0978f735d7dd3e50d2b5ce7000ef2d4369e9a5989392058a9880d59e21c95cf2fe1a02fc4852a3b4a3a102a2134f8159; 0x45464e8b059594009e76d275c9099a68cbc881941ce6ccb53491460296c1f1d56fdbe88f6fbb36d3a1b706e6448be849f87cd0ac643de589c3df9daf32d230be62d5809be21806d193851f01; 0x222803e715e134fa5a729da961e1fdb4f049bf1a0185a69025b63e07a94eea3c79ddcd6b2c71c36c54a5c0c900f88446ee8c5d3f8266306317b643b63ff7af2f0599cb5e53a318b44a459e32; 0x75e2e23728bb89bcda50ea2504bf1aac947119b41c1235b814b40778c3677c5d5d91739a369f9db6e5ed1803d1d310b77ae62f3e1d5b8ad852eb410d7e0683d8e1899a64a2793c73152794ba; 0x746f5bc22b94d81ef02db738d5e965ba780f7675a3c8b2b686a6c59581e7ee87f93902259904749630453cf7f1a6c4790685ad2566734794e66436781d5e1ea6b6ee673548712137b07b369d; 0x2d0cd2bb05e4b27b81ff51730cc30d8c57e510f49f22483baaba815af70b3906d05119c3446b895a699278e877345ab146f17492f4b84bff9def8169e3ce5f62748ab47bd6611ca28dbc1f05; 0x74b60c9ceec5a60494d795af7dbc045f2cfad197149e28e18ee1bf8f99c6359cc2167ea69bd55d6cfb4c6bd53699d1a65a07afac45b7b475eb8fa24751bb32ac66a09cc071835546455a6d79; 0x213cd38b01ebb83ba8fb33f4cc06e052dd9d9639942f126c0356c46a17c1af6247402cbd4fe46fc3a3e62dee8f5bbcc014cf454c60ecf2651c3b0369735f3d896c3ca264309cbffc98a271fc; 0x40eeb4af1b95ab0fcd9cc9a6f679379a3e369850db69e1a76b018d0768732c23bea8b383763f44cf1a065d3255f9814e9f73b7ac038ccec83319ea329a0a3066479c655a31dd27213966a5f1; 0x52bfbdf7004c736faf4eff759fa903d2e1cb8465e4f36c18c4ecca1cb433b76ec16b680eb91f4d7fc68f96818756527c84f3f2ca8a5b4b4699f97bfdc2b28d30ba4ad884756c294ac5a9a06e; 0x28b5efa3c87a7796a4fdc332693047669418ce30e43cb6d1f7cc6ffbe8fca57a3b570b0f10b0b93ef0f419cf7a7ca3b2f93bb90690a165351000fc3bd944f52905d48343b5a2199b5bbffb6c; 0x610909a1f0cf15681994c5493e68a0e467c41534cd1736c82236c60de3d019d47621583fe782022fc833477bf32d44d5464b6424a229e930a2991581ba392b79ea9e8662a1e5b38ede24b5c1; 0x7fdcf120579c71749554617361c7ea4cca1dd1206630700613a74199fb96d44bdfc5dc82aa3f9149286307a67c7bd2d3c7ed797aff7ea6e97d671dd3850c165c256b7e0ced13b1f6ade5f80f; 0x7ebe6ae9999d3e7b4d56679d9d2aea11cada28d45d7fcb0f97e84b202ff8f5176ad4142a76ada9f4660fdb040fcd89f136627b4d5aee97d187c6f8860e05aba979d459eecc81fe303b056870; 0x5bc4a75ea3e373a43d3c97726b73c771a99901f0bc28911189a239a78ef137586ec41d6c08da066cdadf95c7d34fca63acdb31f095977e7937d37ec2a8a3818980db6c31f0d898a9888dfae1; 0x54fb38e258e844dc2d65269a7a28bb4606c8338ae308d9d90a5b80e00ade67328ee27d089973d9d826ce6722574667b459b49ea97ffee66c92df628e3ed389bc29832729cbcce47db456d441; 0x611ddb5d58dadd59e0db8ded68c71d98ba83657f0e33770445387d9861b8030fe789cb7cb93a8bdc00585c07063cf4607c42c65e1e50db58cfae8794da7ed33cb3978f9f5b485c704850faae; 0x496a655f4383ad588a9b2a898cbfb40fd5a711fb00cd8aa29782207cb55b49ce4de40268620244d6beb6c5172d6357d394de3e96f63bb9cb5aef125e8a366d840cc7a1040ea199248b614124; 0x5e6592b11607eea5e9cec420dd561a61bb710f83af61cfd0e336d14eec119df41a1b7a70439e47cecebc907816091866e9f163f785b87c403f43d5b2751d9ef8efdcfd6fc74e6075b94c7096; 0x163a6c8e2e1b4b35ef3e829533e60c1bd6a5f80608e4c579068a0f392721a9d3c2a1b2e862aa2aa1862a27033d7adb262b667f6789bb876ae72afc6c1c243975b950a475b0e05e6978a024f6; 0x50747628107a20e3040e2a477d8e41f808c4d3f3820fcff96af381863070a158c715c7a3f08feaca35e5c6add89868ef4ee601dbfd5ff8b5cdce34b7491b942c34430bf50c5028b2f68c2f8c; 0x419e29aa5c2cde41bd025231b5d76fa3f979d0e5f5686d1c2276a2db45a41c1f745174c458193501c4372845966863ab3ac32862921ae5433cf5aff26520f2799246ee37a33851bdb164a66e; 0x7082115ae1a0441c7f6ce7a28b95217504e6061db70915cca8a3b75675d60b36e48ba5b1eec670b080ae0728ed95c1528456656ad38f38291e8ee8d889f305582cca942a1bb5d26c8af579b9; 0x564767815bd5fd8764e618a44258178f9fb5f805abba20e5412f7715320e7dfbe050b66860fc0983262d61b6be9ab72da67717a3cefe055db35dccbf41a848ea36965091d8cf781a5cec7b9a; 0x24b8d7ee36261717f574caf7d502136218bb5106f457d699d465653c87cc5f96bd63924b1b53b8bd666614b68870304b88737157a31c6b9577b783a40836661817a830403e0035fd0381fd59; 0x652dbde73eda7ceb223e801a78b61cbbf957d916f48f7a18a4fa04af172e953dff750d5129490175688bce8c9b28f040708096a5b2ac8b7a5f512597f5301536e8cd21f0ad471042a485e8e6; 0x2a03b73cf6cd5bf0fbc2ea10292de668955841e98417bbce6838c000d45f527a8959cab17d8b0ae75c227acb071ca7aab5dcc4a57699eb58bd2974ceeb87a9ff51b8fc7d575a84f4b41b97d4; 0x48b4fec6dd565334c30685c552e3aee310c7ab0f3c26d614f7479a56f9350ceb90fab666cde0a6dff242f4747c48133e851b0a89ee809b915f898c5f717cdd51cad465d2413775fdfad4dad4; 0x34b3e20d174094fa713be7b06bc9035549e4c337d63a4efac31c6ceeaa6369c001c29da82e346024b971361e3dd938b179f0df80717937d98246540bd39825581febf0573908bab78aac8da1; 0x78d69aa6ab31a7a4fe5035e5412e970eb58138d74ee66e5d449b9fde0a7a9d8dc9798578cfef146732a67c7a124734abf6a25039c7e2dd9bd90546621c26b9932397e8e400ceb740f5528556; 0x5f72c403141b7f069fb3f51d111d03015591ec269f35f5f16aa39cd67ccae062dbbe300bc9f4e2ae74fb98e7711ed80c07ec5810528bfa2e8c82462d61c83c0612d6a0935503b9e783f11889; 0x4c95fdeea88c60561cb4673b1c532cc28310587e7d1d59ec67cd72a72648f67253400524aa10eabf33d58609a2702729ae2cf2f0e7cc0669a5c6f2b8ca23982e4a2b075d4f7e42c2cbad2d47; 0x425e82127776937a2bc6e187e7f8e319033becbc50d8dcd6169bc04ba489d1985b45b0e3e75bb4777030d143b586fc7a2400fd24fb5fb899862a10599306bd3ca78fa1159b6e0e24cdd58233; 0x14b78f77de7b02b2f0c46933b96b18acec0c51d36bffc3d23491e49b3151e9e954cb68ad0f62110ce05629faae1af4d1fd6d577f75cf9aff1c1de8165a072b439a39860cdd137bc4cb1ead69; 0x35e86d8fe1146e2f1869f58c3e8aa0c8014f562e0f3182bb5d107fb7d2aa705a901a91513cea298444f6bb781be2d08ddf12e7f6330dc3a00058d44fbb83cfb1324226736937405d46529387; 0x7a3e6c88e8f3403215497110a66cef99cf927e2385bc27ed183ed6908ea19342bf8f192a884a3759257d4d86d000567e8919fc78246a36b347d5759bb81b08735fd716aedd3acad4c58a29d6; 0x3bfe6dcacb3eeba870a64dba97469d00ed9c13a4cf7456005709dafe1676c9ff48664ea0adb1765f8f0e9a83ef293ac4fd3ac2bfda197c8ecca1b20dbf45be101d249d7cd91f93748ec385b4; 0x5f4fdccab93b515cae31c7c663d825a97ff1d41c4fdcd23da50d30cadf180af09eecfee4b2401f03c7f94f6cd2b0fb901e929e23d1bdd1584c42e11156acfc89cee5453e5c23d08762d78786; 0x1881182a6e14eb4575599ed1f3e396011c7cdb096608bf46b9260d05075ca9223a31a8bddb2ee2eed358f9c512c66cf1a74e8aadbf765a878d55866c28947173482c0261539488da7d4c3163; 0x6974ed20cb2a0a3c644db4292fede7ae2f6fe2c27a266eaa4458cb61cb65eba4ce066daff6c2eaacc9c777dcc0898db0ddfe0505c3da9a63e11f9a8d94661c6a95d48d16ac2fc4807a36b238; 0x69abef321181793b7a141889e5bf17f39594162d6e79e0d17037da4ca385245849bbe2f26a9af27a9bdf97cbfcd13fcdd3b1e42245198281ac1eaf67ae2f2500e5821c11cffe5c8bf78c4049; 0x49d0fa2587d2760746a12248a491a4ab5a9d6aad013339e870dabaa7739a6be4fc734331d82677673ffc7b2f8daa2a45f3493aecf26362c531260af9b33b6a95abf965df79d7641b727b4c89; 0x7ffffffffffffffffffffffffffffffffffffffffffffffffffffffffffffffffffffffffffeffffffffffffffffffffffffffffffffffffffffffffffffffffffffffffffffffffffffffff; 0x7fffffffffffffffffffffffffffffffffffffffffffffffffffffffffffffffffffffffffffffffffffffffffffffffffffffffffffffffffffffffffffffffffffffffffffffffffffffff]%positive.
Lemma prime_607 : prime (2 ^ 607 - 1).
Proof.
  change (2 ^ 607 - 1) with (Z.pos 531137992816767098689588206552468627329593117727031923199444138200403559860852242739162502265229285668889329486246501015346579337652707239409519978766587351943831270835393219031728127). apply (lucas_lehmer 607 _ ll_607); [lia | reflexivity | reflexivity | vm_cast_no_check (eq_refl true)].
Qed.

(** ** Recurrences *)
Definition bs_2_521 : list nat := [0; 353]%nat.
Lemma mersenne_2_521 : mersenne_ok 521 bs_2_521 = true. Proof. vm_cast_no_check (eq_refl true). Qed.
Lemma pairs_2_521 : inverse_ok 521 bs_2_521 0x1000000000000000000000000000000000000000001%N (npoly (pairs bs_2_521)) = true. Proof. vm_cast_no_check (eq_refl true). Qed.
Lemma other_2_521 : inverse_ok 521 bs_2_521 0x20000000000000000000000000000000000000000020000000000000000000000000000000000000000000001%N (npoly (pairs bs_2_521 ++ dbl (other 521 bs_2_521))) = true. Proof. vm_cast_no_check (eq_refl true). Qed.
Definition bs_4_521 : list nat := [0; 279; 316; 353]%nat.
Lemma mersenne_4_521 : mersenne_ok 521 bs_4_521 = true. Proof. vm_cast_no_check (eq_refl true). Qed.
Lemma pairs_4_521 : inverse_ok 521 bs_4_521 0x1f2598c6ebb7580ea5f2598c6e9f7590ea5f259846f6d3c1c8cebc254cf8374fbac8752f92cc2354fb2c8713f928c2350fb2cc713dd28c0350f92cc613ddb8c074%N (npoly (pairs bs_4_521)) = true. Proof. vm_cast_no_check (eq_refl true). Qed.
Lemma other_4_521 : inverse_ok 521 bs_4_521 0x1b233cc0cf3033cc4df233ec0cf3033cc4df313ec8d4130f0cc21a3946c77e79819e606f989f64679819e6067989be467d819e6067989be667d919e6047981be627%N (npoly (pairs bs_4_521 ++ dbl (other 521 bs_4_521))) = true. Proof. vm_cast_no_check (eq_refl true). Qed.
Definition bs_2_607 : list nat := [0; 334]%nat.
Lemma mersenne_2_607 : mersenne_ok 607 bs_2_607 = true. Proof. vm_cast_no_check (eq_refl true). Qed.
Lemma pairs_2_607 : inverse_ok 607 bs_2_607 0x200000000000000000000000000000000000000000000000000000000000000000001%N (npoly (pairs bs_2_607)) = true. Proof. vm_cast_no_check (eq_refl true). Qed.
Lemma other_2_607 : inverse_ok 607 bs_2_607 0x63f1f8fcfc7e3f1f1f8fc7e7e3f1f8f8fc7e3f3f1f8fc7c7e3f1f9f8fc7e3e3f1f8ffe3f1f8f8fc7e3f3f1f8fc7c7e3f1f9f8fc7e3e3f1f8fcfc7e3f1f1f8fc7e7e3f1f8f8fc7e3f3f1f8fc6%N (npoly (pairs bs_2_607 ++ dbl (other 607 bs_2_607))) = true. Proof. vm_cast_no_check (eq_refl true). Qed.
Definition bs_4_607 : list nat := [0; 92; 368; 460]%nat.
Lemma mersenne_4_607 : mersenne_ok 607 bs_4_607 = true. Proof. vm_cast_no_check (eq_refl true). Qed.
Lemma pairs_4_607 : inverse_ok 607 bs_4_607 0xa960ce41f47ef854b067203a3f6c2a583390c8338fdd1a9616e419c7ee8419cbee8f4b0ab20ce3f747a585790671fba152c29c8338fdd0a961ce41b47ee854b0720ce3f742a585390651fbb%N (npoly (pairs bs_4_607)) = true. Proof. vm_cast_no_check (eq_refl true). Qed.
Lemma other_4_607 : inverse_ok 607 bs_4_607 0x1e9f26d4caa0e4cf4fb36a695073e7a799b53f7bdd294a18c617bdea94a5b15d76776c0b9b58aedb3bb605cfac57ed9df302e5d62b76cef9817aeb17bb675cc0b6a66d072a7a7cfb53328394%N (npoly (pairs bs_4_607 ++ dbl (other 607 bs_4_607))) = true. Proof. vm_cast_no_check (eq_refl true). Qed.
