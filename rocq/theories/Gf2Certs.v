(** Certificate for the period of xoshiro256plus. *)
From Coq Require Import ZArith Znumtheory List Bool.
From Verif Require Import Primes PolyAct Gf2Act.
Import ListNotations.
Open Scope Z_scope.

Definition gc_xoshiro_steps : list gstep :=
  [ GSq 0 [0x10000000000000000000000000000000000000000000000000000000000000004]%positive;
    GMul 0 1 0x10000000000000000000000000000000000000000000000000000000000000008;
    GSq 0 [0x10000000000000000000000000000000000000000000000000000000000000040; 0x10000000000000000000000000000000000000000000000000000000000001000]%positive;
    GMul 0 1 0x10000000000000000000000000000000000000000000000000000000000008000;
    GSq 0 [0x10000000000000000000000000000000000000000000000000000000040000000; 0x10000000000000000000000000000000000000000000000001000000000000000; 0x10000000000000000000000000000000001000000000000000000000000000000; 0x10001000000000000000000000000000000000000000000000000000000000000]%positive;
    GMul 0 1 0x18000000000000000000000000000000000000000000000000000000000000000;
    GSq 0 [0x16f9ead82c46b73cb1a581daa919c1597e0dd9d731a8499f69688c48e2fb11122; 0x18654e75d836b5a82aa1f19492531c25ac0fe1d63623350867ee8a7fe639c8702; 0x1c050fdfe21d1494b3c4bc13734520f6c66f5fe9d32e97ad7ed4b807c35561e85; 0x1bb84b0f6ec03d074176939a5a61e00133b2b1eabc1775e05ca4b825d9ab88af9; 0x1db47f0de3bd0b03de83ca3b9b81afc05aad95384e3c184dde6786374a88d4ec4; 0x1678352247458ad4fd95fea62d26f9ce26a09f6fd71d21a0d98544dcfd17a5cd0; 0x177543dcc84dcbf663d3d7ae10bd39b1bfc40b664d73bf11d9b52e41baa7a071b; 0x166f53fbe74037b6e5b010d445edab5e4cda6a9dd6daa751b02aed9646e5b4651]%positive;
    GMul 0 1 0x1ec3e266f07dfd89c75fba9b2906ad81ec8173e445f1ed29af1cc61bb89058163;
    GSq 0 [0x1af552083ba12c7627e6a2cfeb4242645546b6b6d3d21dcf0959a016dbbf20fe2; 0x18f7949621217495ff3b03f5295669d9bce6c603a0c205d2dff2ec46b17389b6b; 0x14716c2ecd57b6254cb6b3cd174555a1aeada8329ca6f61e783786bc1e478cc9c; 0x143cd7e74821a49e73b438dafa75a570236b50054b53a153093d59491b55dc075; 0x12f1b091a752e99a3e368a6b104358f565a4b896fd49f37bcd34340967e2d7ead; 0x1056213ec37cf048ae616668b79e61903c1feca4e00d148f720db460700e2cd74; 0x197a9b874a4b0ec818940803e6677ee89a7c0d1b9acb2a77270d718e71c8182a9; 0x1634fa14678ca1910fc549f2712742ad1149f885386721d37d9d0c8949cc2b9f9; 0x1a625ab277627c191127e234308fca2613b053a50b4f54b5c53366507748c1526; 0x188073eca01adf11e625e62020e9a1ddebed7efb731a0d991f4752a3b76cfdffa; 0x1d67b4fe8a7099d74a62277e717cc82f0a1d766c980458a70a884d4c4f562eb9e; 0x171be7a3503604a74e8e95645a22e99ed3da779d8c6e7aa9ad258bce9df4e8cfa; 0x199fb515dc38beecb0ca78232de6ad20c2463c8535611fa7f27e071d7f13fdb7f; 0x1061de211433cf3cd4c8eab5d2b4152fe0f321954dd0d0679b4d3be7707f2c063; 0x1baba31b888ccbe88e15fff6407dfd515b4ad4763297ccdcad1a508cdd32704ec; 0x13f6b71f362fab31a9fff35b9f3d25f0aaa335ada6d22068859216004bd691e4d]%positive;
    GMul 0 1 0x187034e848fe1b96712fda107eeff2ec6bf86830cb9fafe796281b139c670efb4;
    GSq 0 [0x1686d0af26fa5f1043ed6708d3a683931d7ece882ae629b52113e94427a9b92df; 0x140af197c06683add4b74cbe97ab67b6e0062e6560985026414e0686f23c46c1f; 0x16ac15c700908f7a30c034120482499ba7fb2a34d1b0a79ce6a578114f8468a3c; 0x1eed5d3cb0c6f4be77c20802c63f19b240850f2779bff8bd2d2ac5e32771480a6; 0x1b13a691e552f162fa94b23e0891d96242996bdea0cda13e2349c842f802b4000; 0x1203047594fb17f0efe82b18a79cbcf12dffd5797d23fa837540d9f252aff1f0a; 0x1c92d1c90899b5273232246621ed6b5550294c899dfe957b5c20dcd2077e5f3a9; 0x12c7a1103b78be5554a4e839d28a573c96c3599b4337948dcafa0ef09ca9479e2; 0x164e6d88ab0a9cad4a6293653e077897348b2a7552fb8d1f5b355fcfd8e1bbe08; 0x1e3511e7ddf448e16df2a8c3e4acb906ca511855c6d1e5dabd7b87e67ce2c3dd6; 0x108d235ef67571f2944c663c0547b8699cdece116b2e079086e4dcf83083badaa; 0x12f4780fa612d470b184c91a87a340a82996588602e69576b98f9077eeada904a; 0x16743d58556c21676290d1b31822869c860352a5fcfd2bc51420c7608b16bc641; 0x12095e1794c0f36ab837615f58d5d19a84a3467522037bdc4245e27fc842578fd; 0x1862968b55dea219c1516de409440deafd3e564708df5587b2629a8c03d6d6c4a; 0x18f2c86add26a3b2d53035645e5905111a03cd0194d40cee24014ebd6cc4f1333; 0x1705060a3b416b26f82cf292d8568ae316c06d5a9384a4ec0511b0fb08c4be04d; 0x12169baa295975dabf45d298e4abeb347a3d8bd9e20c5e42bdeaa415247709a1d; 0x1421f2fbeca6ba97dabedf535058f3423cc649fe0d7435c4583f31956841a4456; 0x142caeb315f46d625b59312aed07f87ab7cde9830a258abfbbe0261ebf2fe6bb5; 0x122f0f2b889904d423ced6a84d0c0d9768ecac6f4bc7c2717151a3eb58e0f3a8c; 0x1765d848759847798abdcd84091be719484dc4e845d95f7626df7b7c6af323fb3; 0x10ce014dd12b6f6b70546f0ae3aabc8908cb48c06685dcbb052f816d08768d43e; 0x1f3871375e98bb977b75f5cf1329755c568309a8e04daa23bcd99bfc28bb969ba; 0x1a714f357d18ea0f3e3c729422967d0d76f7b5c8121e9b6799c1671d34211937c; 0x1471073163310fe2f3387b76bd6083cd8897b2a24368a59215e830ce121a74486; 0x1be6cca35ff34b6fb357bf77674c45292386adc17c38864e0cccfe5dc4b2da68b; 0x1818db1f8fdcc3bfe4833eb1eb09b736ac397521941f90745597e58c1883dae92; 0x1017feac7f8be860190cc5b9c5e5ed0cdf612287f66789986277d4ea63effbff8; 0x1f39b1c3e7118b2a194be0b1b02f353edf5966eecb41ca3d6e4f792e9e9e93658; 0x16a23cdccef906144ab20e10c3a859c4820de4077ebb30704f69e9a4fa9cb0dad; 0x1327fff0b252682954188a1d716dbb44b244460f88906ce65a27d7b9b107532fa]%positive;
    GMul 0 1 0x10972517dfe0cdffc9a7d7f8c23c2e1055b06b62dc63c7883589e0b7404b783aa;
    GSq 0 [0x1c789a146a4415d77df053ee36a1d7b467b935cc395c9994f33883bbd8d78abb2; 0x13b6e5284680a6f958de1b709b1e425dbaca42f8d79008823be4c2256da38f57a; 0x1127163b6bcca8cd230ab351a2ef69b36bce27a4736cf139d120a302303c9ef86; 0x1bf30c81cff5a68f6fe12e18b8db2129e276f15932ee3d71dc6e4e21bdffecc49; 0x16dde9bc0f3cc98c090fbdb4026911a14ab05ab98d1de94aa53c4cbad9708b72e; 0x1e268f8a00905c8ceddda1d5fe59e97277114c67594a2ea644a243d214b70dc3c; 0x18b3cba1037637376de1f969c3fda21088ec56acdfcd158ed3cb9cf25bbeb68a1; 0x1e71468370759be66c0579b40e73ee59e1050abcac50186a05789a3c1698947e8; 0x17f72588ef37ad15186d10d1fa4c059f1023cd16ea5d90cfa716b16c6507f9114; 0x12f4d245c51a7bee4c4d3fa740f8741f9085a242116bcf9cf7990fba631b288cd; 0x1b2b8c0e09b85119c0f690fdae3a8ab8ddcf4199395bc61e7e191e567259a3205; 0x13f6268c32e7040abe70d1ebd779760f6c3303844c8534a0be4980a0079d37993; 0x1a685d58860ce106b8986889cc65aba20093bb9ca6a4a1a019c9fd477a19ef257; 0x184bbe26cdff130f9d2c5a6d02d2b694cc981e6027011b64e9413632725a67bd9; 0x1a43ef2e3eddd2717339189b4b50ecab860220036c81697310febc3b2dcfa4398; 0x1a898cd0100f987a8c4bf9e684c741c5fb6f56bee42b919b8e19493a4afd2a2e1; 0x171468d0a6aa660e4c045b829c4364290ccca3d2717357a9676eff10aaf6cd1b7; 0x1e97e4eb353b8b57c65eff67622ba6a63829d0ae5e26d65bd0fe8e3d9f5269f0a; 0x1056d98f2d40dd9f17b42aba7d02883f70e4f8fa6266ef7bc6cbdc912caea7b55; 0x139c728f92443972b1c11f0f46cc55eca4e562210163cb167d587a2f9b6c6abe6; 0x17dbc92ce74f4727522ebc27c6875dd651b742def67d0d5f4376eb3168c22936c; 0x1978101837d3ebea854f41c512f1068caee20d154da96a0fc8a2dae5a93185ace; 0x14bd5bcf6abc7bd7809284120030aabd781863f545dc6369891da9156af22af4b; 0x1240f5eccdc387f96d85ddb53b6c64c19661c4e5b4d62524f7ed8a53201cc82ff; 0x114290616cab7497779f73dea0045e175ee663dc42b3f4797393991f5c49eb00d; 0x165de9edbb066ca6b785bd3fe9d7ec4ed46e239118127a147c393f08f16778bc6; 0x1fc58e71f69692d9d6eb40134e6f23d8bcd24f4774eeed1e1e6febbc261d36baf; 0x1f3eca84ea1ec8899f6ddf8ceb452c32103a2568e662e0bd55c19953ca52106c3; 0x1194fe00b5438e8a6a88c21bad17b319baa29cde31e002f876e3e91cb73a0be21; 0x1ff3ff9d14f6bf3631a073f67533d5f387e4dd5475ec093341e777b78264c4de4; 0x1ac98b62c0a811f5f55728ac0e70b3e6435a1238cb9fe29308a81704de821d6b9; 0x1c777668068a36f716bbdb00be81b1be91198261947d17cccd110c38cd23c172c; 0x163fa7811946a7f8cb4535165b9d08f96ef316b353ab04c87859fa8aafab79409; 0x1588a50353b3a24768b3ba0108c9fab226d1ba5a25bc19381ab891e6660f8ba80; 0x1cc825f88e088c2f8733e6e6b463fb58302d1b3de20ab8e070d930b28dca429fd; 0x15f0c1ce1800c3eb77e90973ab99b489af4d3d18c81cbd9d7c02d4284e55aa766; 0x1f98829ac22236a584825b122f27fe43d80361fcc4cc5f4fc50ab4bcd03c88350; 0x194a7afe1c55d9a186b4ac0aa3a9b8ae06ffbc2c0d1c383063518e52885ac9da0; 0x16815e65ce9f699bb6fe384910ec91a7de153c63948a2a7d0beccc48e91088385; 0x19e2c690cf5bda261fb6437d5f79e49934c538589f9b170ed204a80550dccd8a1; 0x174f99a31333fc04aa1ad5320facf759a4102336d7bf21024d8f909062dbea91b; 0x16f67ea0618118b81372a918242bb916b742fbdc9ee6d70a83aa9c3410c086287; 0x1bab7ad97cf64fae1fe05c10e9eeb26993aa3789e062544c410afb82d876e6e0d; 0x1cc904214633d74837859a99fcf8358c9b07690744cf22fbc4082326eb6a4b590; 0x1f63bdda7a24b49266a0bb0919286b6b9ad90352de713850d62f2ee95f9448a90; 0x1001dc45fce95ed7dbeb09c672dedd7e04895d15f4e4b8785cbf116ffec0399d5; 0x1773306d133643c966d32ab323a791decff4daad728dd68f35a26f282bfbbe8d1; 0x1f470dd668be555a2e5ed3665e7ee577e77000ed89c600983069168700d3618bc; 0x195caeaaf3562b7f04a66ae8e7cd3f5e9e1da728094241fecaf3d3c03f764332d; 0x1c3f7cfea906b2094e8cc30ab3ccfb1c5089f5e18a10707bccfd52ff755e1826a; 0x16e0c456f05340972908a23c361259fd3101a322a8f77ef7f844c3ac0b462d40b; 0x1ee0ddbf846cc8abdbe84fb86abcf540b90a9435bf5f5549a4cfbe16aaa3c0128; 0x13de1bb9055ba7337895c38c5f53edae1921ef9c1c03eb242f7ecfc8761df5e27; 0x18bcef8964e95b791472fb99ebfa04ced3d51a207c144f161548b7ac1bea2a2bc; 0x1cc4f0524e60e23788fbfe83c2c70a8fbb0aa3ee2fe99bb809eb48a9ffa64edf2; 0x1ebcbdb580d62258f281fd21e5774bb17623377146fdfbd41ee7d1df6f2a7d350; 0x1b46a75193cd8a94b9fd057fc332ec80e2ae72439d637382d5a503c922b4224dc; 0x169003355ceb863fbe25e783a2a14960e94b72c4934383f54944ed3c9c2ef2a43; 0x1ffe20b965437a9eee300aeeb3715f0cf455126baeb492b618b5713809d487bd7; 0x148949986b5f6a8fd164f08ee1ff077899ade0454b6c2d307b9489f332467f388; 0x1d15d6611a55dd555797490c63429d7f323f8eac5e68d463ee8db9c6cfdd946c8; 0x11c2d98dea9a393c7f2dda36aa4d3ea82e8b74cdb9d0eb8bc0567ab8a569da98c; 0x1678eea9ea1bcf22f3420d5f31085e221d2c7f1882c83025fd33ab3954dd27fed; 0x1acf8ccbf02c6a29f102c2a4c4ed4a6896a7e2ffa026c1ade31b0607b9a3c8c16]%positive;
    GMul 0 1 0x11cd5ee2294d8b30e54ac130c701fe4d56ad3093378649c960c0763699e7e855d;
    GMul 0 14 0x139abdc4529b1661ca9582618e03fc9aad5a61266f0c9392c180ec6d33cfd0aba;
    GSq 1 [0x1a88e72658459fb2feb32d5d4bfcda154727f233d472df4c8edb71163b2a40e64; 0x15d4e552d70f7dee76dced1fc2bcaa3df656b8f47f43f5a956f27e47230197bc0; 0x171eed2441e3a0c00ce0e597cb906d9020dee4d41d56344176f5978c6a82c064b]%positive;
    GMul 0 2 0x183ba4184828e6d50ca12aa060280c324821b2ece381611bbd3765a61bb4703c4;
    GSq 0 [0x1f88acba5c9f8a5f577065b48d55c04202a7ecb1aef103deba2ff605a29f0cda2]%positive;
    GMul 0 4 0x1d648c207bf072979d88069bc3f6333d9fb2ef28e40ccab97e020a3874992c9f5;
    GSq 0 [0x171ec2166c4e606af9b104982d6fa29ba9bbbb9e741328723e071c6d12b7380b6; 0x1b9912b7c7988ea095ca27811ed4668f31e8de98c406bf91a645236d5a17b1bc1]%positive;
    GMul 0 6 0x1e3bac0ff492334ab9abdb8308f18bd32c13e378dc056fe4d79b04af23a460420;
    GSq 0 [0x10284aebc32288f86ba848b7f0ad45d7c1bc85206e1be26d4e7dac491b001aa9b; 0x168853b8d179e21c0f661da1c586e62c58730d69e0545a7a0ad1eb4f0379fdc85]%positive;
    GMul 0 8 0x11e6b3f49f43aa6463aec688872f886647c96046d15c08b6f6c163edcb9a186af;
    GSq 0 [0x142543edc418556c0fc1354fd2acfba2d08ee69b532ae06299cb58c1009478e7d; 0x125da4bf8535c3c1527901ddf5d527848b268d1a6dcfce97508f281786bcef223]%positive;
    GMul 0 10 0x1b448819a5205cec529c6d4054da5690c2e31597dfa117102f4ee9d70704a3eb9;
    GSq 0 [0x176aa860dba73d29207707680c1e4e941b19d78c41a15cba6c806a82ca8f8ad07; 0x1b77d9bbdc0a40e685ded9088b1462498c1d9a89ff82e647b1dc6decbefff8e33; 0x174b977e16516592c9302d936384b9ed759f71e2c3643ed62c8b1d7c8cd9cd840; 0x1252470eefa862873b7631b2144c119c42e969d04c65a44c71598831221d06ea9; 0x1a9c40c04b41f445fd8674867e11a9bbf6e9df16d4047b9d66c79d9c391d32466; 0x19e4c7ea8e65560cf4553033b3c37de8b5171387e6bce1ba05cad15de5c6da1c7; 0x1c1747f28c7be67461ec91743dd3df4ee7b66f7e11d33e7ac5232428458a1e951; 0x1577d3e9b991ed08e0abf75329d60297a8ccfc086490930f202c744bfd0309863]%positive;
    GMul 0 12 0x1d24af5873430ee7a305b170b5c13dbcedf5b5975d65e7f4fc2835d6daaca065d;
    GSq 0 [0x1ca757710f4bf85cecfcd7dbec29b4222cab5421b83223e071e9defbf2457be90]%positive;
    GMul 0 14 0x1f2e8e1590ba3fb801963ea0fe653411740bed4a73c3f0d3f944c64054c557ceb;
    GSq 0 [0x194807b60f2a09c2365301bddd8be1977d557ea648bbcecbcc0a4e6b46ad74bc8]%positive;
    GMul 0 16 0x1d2dd8e21498b3c465bd9bea66fc39038b8d4f4fd00190a5ed4400283d057c1f2;
    GSq 0 [0x16d278d045ecc2a13a101ea815072be11f17e6f76a5f371adce5b23335080b38d; 0x105e1267572e3b34fd376ba37fdb6ca7ffd5513ac9eea8abd7966ee4da9328ac4]%positive;
    GMul 0 18 0x19785002c5a08b9e62faf0571318dd0a7705399a4bd21bea974877fea631e769c;
    GSq 0 [0x18da222db18594ae9d7c66e7a2f603941bb377efac7d1f74d7e96eef8d65c7c47]%positive;
    GMul 0 20 0x1df096d21f90c4b5a7b05056c7cccbaea00ec33458e1e9d73284959f73a7875fc;
    GSq 0 [0x15010f46ebbd68cf522752079fb52df67372ee10c952cebf21db3fba3922fc06e]%positive;
    GMul 0 22 0x185573dbea22d048bbb15f8d64ec3fc96370c9c3058de6b4cee783db2e2b896d6;
    GSq 0 [0x1b64d8aa675683248c76d46c1663cbf705e7b510260781d83f4c015de93632aec; 0x1445a378bc99276414f5284e17f8be660d7e30e22d4dc9fa163535097af223b59]%positive;
    GMul 0 24 0x148e337f6b0f37e926064f3c8484dd96bbb914529151006bf2187bf0d66bb8ba9;
    GSq 0 [0x189aece1301a7c7976eebee1d972e732721b83319a71a1229a148aeeafa7e06f4; 0x10a06f25be03df678d22928811e1da1807fb17635f335906e3c942cc581f8a156]%positive;
    GMul 0 26 0x1fba726fa9ef2c2897dc74b3552da6fced0e5d917b2b22a3543d925259a86ce34;
    GSq 0 [0x1aa2478b05460828e5cfdeb689d8afa2475f084351119c4de8279f3e1a016466a]%positive;
    GMul 0 28 0x166f7a6195eb40a8a198589f89dd3e1ef43b1124b1774226e89a535cb2bb4ff76;
    GSq 0 [0x1cbfef7db17ad5e2f4a49b1509f1a286b6ebbb9b25b66c377b36c547b64118a44; 0x143352ba2d0199ace8fde807e11e6b8283a97a5d183a34a1ef9efea259de2900c]%positive;
    GMul 0 30 0x108eeb923cfbded557f4a601621a34c488486774ee128081c59cd3eb3e78328c7;
    GSq 0 [0x123156506b406fc06a1b01506b5d8c8bf075693bca6e18a86d30f84bf0e6bd549]%positive;
    GMul 0 32 0x169c55195c66fc7e2cc0e44a44c751a98e90f088115bbdee6eefb77a6e82bcd13;
    GSq 0 [0x1043813ec038bec18ce820b9d391c552e7f1458834efe4c54c49bc56d3393c8f2; 0x1bea701429ad30009bd9f121e818d7e343aa026298d2942dc7ad3f2649e4f25af]%positive;
    GMul 0 34 0x1b48057db74c024da2ce1f78fec388ca8027c63ef4dcdfabe8570a388ce568f63;
    GSq 0 [0x1cb87c1018d245c01d953d2540186899e48f93ba1af0cc296f3ae4a65fbfcc910; 0x168ec53531e8a78831edd0d1a707a32b6529bebba70db1631b6684b26bdfa00c9; 0x114061271363459867c0d104e42b1a693f5115903acc9ffdda9470291893dcdd3]%positive;
    GMul 0 36 0x16eb3c85c563d67e90ae6818fb59b4edf3415758e028cd4c82f0936b6498e0251;
    GSq 0 [0x18d6084a3fba477fe3f072fe6c03baa97c0e631baa431b235b9c43d793f21a8a9; 0x14ad587399e798a91b856b4a2320dd7d6fa4ab03f3ca1097f8d2194bf00b3ab5e; 0x11ea4246fdbd7bc324f84d7b6f305b30cad3a0a22e485d6660d0f9aa67e822717; 0x16a4a9991fa7c97d5b2cf8235368d079d83968cc04470e69d6a41685832cee2df]%positive;
    GMul 0 38 0x17173ee30e8d4613890a1ee6f8b5890346a612f5133db6cd480cb05b89c257e90;
    GSq 0 [0x18dd1ded0705db95b49e20ba262cac60902408172af29a8017bd09b9f5e4868f6]%positive;
    GMul 0 40 0x19b8a55e6881bd86ca09b2685d57143492af62b32923a791450ffa04a85bc7f3f;
    GSq 0 [0x1f8f15d7a871c96e2c1f102ec854b6334fd67a8cfae0f4f372367e751ab5ccec0; 0x11de1a9cb1e2478639b68f67ea728c924e78a8941d5a9797cf6a481792ac84eca; 0x1c6f73307e8e0d53881d5e5ff6702fb26a628c977d3f4a744e0cf437aab21be9d]%positive;
    GMul 0 42 0x1cb83ea2cdc1ce5c58caa82eab02117a4f861dfc7288f57c466fd6bdb6f21154c;
    GSq 0 [0x17fbe1dccbde071cd21728cb5623972aea4f965009db80d7eaa3042ab489a546e]%positive;
    GMul 0 44 0x1361fa84cce2b5b81d8ef69b3ffa860a4c5cd44c8717537c65f9f3e9c69a5a35d;
    GSq 0 [0x1519fa73f9d1e79e9153deb81d8b2ed1ab34bbd9a6c1e12d86fb9761decdb2f0e; 0x1f1c3745ab39663cb939710c458f359f9e014af1c63a3c278222c7ebb9271a5e6; 0x11782c59ea89546950a2b06369b9d34cfc406f896e8126d9336c50a996e77718a; 0x1b6eaea7e9e3ab31792dffc06b0023d87c39fe986de737de065b741673c042f3d; 0x186abb1a3c2e8a14fd992f98634499c2187d546b2ebef1661f9645042321fcbd7]%positive;
    GMul 0 46 0x1016050b9b5f523632873508182291d6fc76fdad70169721b48e8473665f35392;
    GSq 0 [0x181ccc4c62c4e279d09397cbc72b417f60fbe76197d477940273b90f0a9576c2a]%positive;
    GMul 0 48 0x1b142b0b1655bdeddafdd083ddbc290509f793423f440c05a4454d1c5c8a4114c;
    GSq 0 [0x1833288bcde393f8f75ada403afaef2768129822cb7be5c572d6e88a5ea9c6b79; 0x1a32faf369958fbe0178302761f7feb25844a60761c16eaae3567dcd7d91fab60; 0x1ae7c1b9657ea4d95131fae05efaabc568096a51469761ded267d0ab55f17ad64]%positive;
    GMul 0 50 0x143f9319ec1accb037d33d620483dfd8d078d4c60638f319b57362ddce6397134;
    GSq 0 [0x1b5ead70f083bb57d43f908dc3337fd21d1e58337b545013e7929b2adc9a8a8b1; 0x1da52561fdd7f9d327a14ab2f167d44bd1f947407b612b74ac9abe95f4c572e3d]%positive;
    GMul 0 52 0x1c63621ae0fe674ea58b81c8b3e06dd62bfdf89a910d5deda594d730448f9c660;
    GSq 0 [0x19bcacb3289bfa016dbd13043a170d1ac99bbc7b471a9df190d457c6240d17beb; 0x1a68430f7a1abfd4b56c7a0a808bc340487c50d9aaabca005dab1c48cae77808a]%positive;
    GMul 0 54 0x1776e7f6dbf5475d532d9cf8e6dab21e32baa029cd694894d28bec6bf54a6b37d;
    GSq 0 [0x13beeea1d09aef394fed394c9bb651e1c1d595b33ad6f3a6fcc6d9b43940664bd]%positive;
    GMul 0 56 0x10a9cf7c81d742f611f5b9ee8a3eb62c6e9af29cc113e60d8d747a968072b50e2;
    GSq 0 [0x1d2830e38b2e7a770e15845ef0da7827b5b3ea871203f88fc90ff7151672a0891]%positive;
    GMul 0 58 0x1e82b457f2758a7fc43ef794b8e4a66daf03eb97dcaa5d30255481345df95f0bd;
    GSq 0 [0x1dd873a06664db2cadb4bedd114478452290193725c98b7720b0e88f1681466fa; 0x1a167bd595b3a9345654a62cbc248d999165cf9908aacb95f677bebf992df80b1]%positive;
    GMul 0 60 0x18831895ac4fa9f742324bdca82ee01f4f76bdaff762d36e10e82c74b315b35f1;
    GSq 0 [0x1e16699fb5631c79acfd16af01f827e85485f7473a5812b882dc6acb03faba1b2; 0x155c54ab4afab27ce73b752151e58daf429943f801b7f46d900e827f96d19d48b; 0x144ef032c7137ed82105d162a8b4c2d05385ce35f0017ff3a1342318852ce21de; 0x173c56c95518585784a0b347c08503ea68fe8cbd0c6e5c41cafe1b7a6ec418461; 0x1ce03391c8acc6310314eae5b72dc8787ba42eda0f6d3059885490edcc6235811; 0x1c881271ff835c2bcf73236f6f66fb066a758f0405a19e71bbbff0fd181079bbb; 0x18457836380d109bfbfc5f58c0dedd2a2ac50b8bd712c598ab832f29334090bbf; 0x1958ad0142650e7e19d206feb9573d7dba64d4d3e78ca708389bde1f12928c638; 0x1905a107a07eb168cc0365567367bd43bc936f6a922b8042407b4e8861cef06fc]%positive;
    GMul 0 62 0x109ca884016a9ae0ccc7d474a8d84519140837e437505a90a217cc3ecd3bb53a6;
    GSq 63 [0x1a88e72658459fb2feb32d5d4bfcda154727f233d472df4c8edb71163b2a40e64]%positive;
    GMul 0 64 0x11f290decb4dda6aef528b6f4f2e13db914ccfa7144ec0af41f6a7098f09591d7;
    GSq 0 [0x1e0242d74d7b6d0dd78ab694346197619b0fbbac08f1cfea8a17c33d2082b6ef8; 0x1c45af77b56fd9470283376e5cf9e3bb5b37d9615944e7cbfdf90b834784c3f4c]%positive;
    GMul 0 66 0x1769aca249e18b75ad2e1495638b6ba64d964858d3a9a7479c567b083b5daba71;
    GSq 0 [0x109f7ec636bd948b79a185f20f4c1ce06803f6260818189e5c64cfbbc2dccc106; 0x1acae40a74c1ae9bf3a232a9c58d7b1794c9612c142cd3b32a0ddaf6b83ad38af; 0x1b6cb2d075dc09eea6a56e0aa00e02199efae14cddb02d6c88d4285c59f255023]%positive;
    GMul 0 68 0x18a546c151125fbd5a5d5c468e6427b3624e929c44aaa7a8e2d6281321a43f4b8;
    GSq 0 [0x14df4e137890200e15f70d207521163770fc67021bcc1cb6a297ba2ff2f8ff5df]%positive;
    GMul 0 70 0x146a6e770e4a57a2c20cc68266f12b605b8e9ae0d822ace6ad29f7a84d62b9291;
    GSq 0 [0x199ecba14462796600bdb46078c7d1cfd8dd7d5ffb681424533093a4254004be0]%positive;
    GMul 0 72 0x1a1ed0577b64eacce861ed152238baef6fa2ce38dfc3d15b5c3deae7d54511a1a;
    GSq 0 [0x149461f41d4cee248dd8236a1b725d4f1bb8c05b4a4a547dec34a65676722a03d]%positive;
    GMul 0 74 0x16214c693e31bcaf202e79c81b3dd8f880c963ff08651c7abe15be0136afd803a;
    GSq 0 [0x1692d4898d3c801b1fda2468fcbba9ef4d9eb4c8ad2d55e7db60d743a6e426afe]%positive;
    GMul 0 76 0x17c5f03405e766dded08fc87ae10740f316b2b6ff80178beaba2ac290b846dd6e;
    GSq 0 [0x1a40e1c1965975e863c5e8ab69900abc1f33bbd9a8ea9014deaf94641a39d30f3; 0x1c2ec5084dd4ab5f557a3f652d142895d27b38999e892de0bcf07ef51064d9bd4]%positive;
    GMul 0 78 0x1735c8719f7c6b941ba6325f3b2f7ebb0ad8c3343120751a108b391c320fd9a96;
    GSq 0 [0x17d3d513428f2abcc256403f69b7a8f604379cb5a641221ecbd850f4a6766520c; 0x1a8a93543ad944e5802769215bac259ed501207008a00e50d0e81e1ac0c930c67]%positive;
    GMul 0 80 0x136ca1524691705955c8603202d623889accb1157302a1fb03ec0596fdc7658fc;
    GSq 0 [0x14127769a77e9f98168c6039f70060492c61800d2caf6d33c122f927d3de0bbb3; 0x1acbc08f893b06f99d8c77edfa29e4fca3502e39beda8e9e442418b6b65cdc7ef]%positive;
    GMul 0 82 0x16d1856194c87eb1825a7619efb89cee29db93a6d9affd88743fc01c25ae3f908;
    GSq 0 [0x12ba5f30a98b3025bc5e4ea4ba561b938bf3d28358b33a038f0c4790686a3de23]%positive;
    GMul 0 84 0x180ec00f53c5f02a1d94b83a9eb4ba6eef97395c16400526bfd6324836c2458de;
    GSq 0 [0x176dbff525099b55cb046b515441ef6c8d1d8046317d3ff551649e3099b81c7cc]%positive;
    GMul 0 86 0x1303f03cd690817e61c24d80788078e71d0bba0e8344e1ab9915a8fde7d4edede;
    GSq 0 [0x1ee51a62e5d6b12235e6efb9e4a752be59a623d232f1e00cfdf2d43dffe111cf9]%positive;
    GMul 0 88 0x14d7913f0dfd9f4ccdb00bb013b4c44a85e1f60917b328008c15cc54de607c0bc;
    GSq 0 [0x1f9f5cbe74e7f1f2f1682430cec96aa876ba208a0be6abf3f2dc3bacb485697f6]%positive;
    GMul 0 90 0x1b7551b80ee1b7f0d1756cf2047fb481a6aa7bca3485e35b02e76162630f1ecc4;
    GSq 0 [0x1ef36dd98b736a1c1f4390cf9ac9da707ec1f0ea3c2eb6703e6cd88c43dacdf21]%positive;
    GMul 0 92 0x1b6e7458cbc42f0319beac3888b372c5db061dc1d2e1163e4f0957c663441486e;
    GSq 0 [0x16a7ec0195d54a1f2e5f10c30db649b2911d3013917ba2f7b6a5c91b0c880b464; 0x1c6a57558d2a46836a376361bf0b07553da93bc0e4696409954e4b1c5774a4420; 0x12e33d0d19e6ef3b0dd358f1c8c8c0fa31b374e92f7196fbb91a089c136845c3d; 0x1b66817ae94043ac8823b1b29647add0bbc8743670bea97cccdc3d7287bf9fdca; 0x189635bdd731d357ffe6fdb5d34136c5045732b308aa5102651939e0fbfc03b64]%positive;
    GMul 0 94 0x15b2c132702654023ad0abb92cdeb4c02955b315ada2210ef6e617722690ef790;
    GSq 0 [0x170b0d8a4df5996666d100a3cea636c83b6ee2e1e24079bf9e463a195cf8ce777]%positive;
    GMul 0 96 0x11bead90c7e93e60950b2d3097746594ba16cac26fe4b77c971f5981574460b11;
    GSq 0 [0x156b302d1b300057fedb3ca3a9144bc26a5052d6a475b8ca91c61d4ed53e9c7a2]%positive;
    GMul 0 98 0x12a0a914fed8125ef92a6e067f521e97e7424c138fc0a493dd8d3d1a68b634ca2;
    GSq 0 [0x17d234558fccabe592ba85d107d4713a9f55c467a3d216e39a041b39a9a0272ef; 0x1b524f79fe0df214cca866192eee452f0f0912d6e191c3a882ecc626b9ee4a450]%positive;
    GMul 0 100 0x10fb24e8583fc782366e65c52bd432f1551b2cdb0010915827cbaa4ba4b08f8e8;
    GSq 0 [0x12779c61b8495d9926ff436d687562427ae7b1dfa351c43e5c430d5077c1adbf2; 0x191c8bb9e547ee4fec0f7658135cf261c8444e07f44b44d45538beeb92708658f]%positive;
    GMul 0 102 0x149952fbdc474c26fe5f8ee7274bdeea9382e11b14dae541753ea5c16aa92a042;
    GSq 0 [0x154dcf5ac6604bea84f66d79f558ce1f876f11427d97b3f52c58ff66f9c198648]%positive;
    GMul 0 104 0x1f584885610332aafa2f3fa3a4eafdbd9fdb3607e7926cbffab56708f73f037f4;
    GSq 0 [0x1787067af94fbf40bcf14a1abe09f9550e48828a58f40fb142d3003920f878a73]%positive;
    GMul 0 106 0x1fbe8bcc48bfe514d2f9ec99f2f9992c36cce0005a7a4df1dc541de0f40ef0418;
    GSq 0 [0x1a76d573360ec96a795a7b9a5ab4205b55382b9fa9bf6820721816b1284b17587]%positive;
    GMul 0 108 0x195cef3117e40ffd62005d004774092f953691fef49b86eefecad6b0a1ef6da99;
    GSq 0 [0x169750dc47524974fa81dfedbe5d855026dd2ada04962801881bd4ce5aed0a957; 0x1eb439144462bc280f4dab2a31e482c0c2966c72da775500de5006269f545a2b5; 0x151d7527e143e4a662412f96ba82e52cb1081f8777437da13cba0a38678306cf6; 0x18f7b938827468201a81e9752bb2e695284b0a584c7c47b2dc774295e6ffb8970]%positive;
    GMul 0 110 0x122adf1a839c2d09784460c21f1748111c5ba0ed680dc7b6367c35186a9634a0e;
    GSq 0 [0x1e99bed78e826d7ffc7f41fbabca033ebd893d8447a88e4d4da11ba2c1f5ee951; 0x1bb0e152c35cf87e49d3d75f02fe807bccccd291e1dc46a0bb3ad4e24f73c34f8]%positive;
    GMul 0 112 0x11e91e36b91c48824b13336fdaa726f28d120ee493145fb5eb81abb2af335940b;
    GSq 0 [0x1b0eacf35034011833503236e19d9785bfd4e80e4ae08d3483c47b98ef0ca6e18; 0x1d2144d7c258edd5ad1537919c67fcf3815549945a1ddf43c165eca3c70b08ed8; 0x1ae4923f238923eba51f2898d3a4c911f345b511aa26511e48b67774043b21e23; 0x16072349039c32eba885f7bf803c7705cb304b5d33f200a5128901133d646e30e]%positive;
    GMul 0 114 0x19073c67ae76d65f3544ebf5c3a33c68b24dfe0aea13f09bf03fc4a712c195a28;
    GSq 0 [0x12546b2df346f01082eb3de76bc401c480bf52dd93dab96af2612dbc2ff0902c7]%positive;
    GMul 0 116 0x18f7e3823bb0f07c1c581a8f259b7c6ebab78edea2a0eabdb39e9c98cf070203f;
    GSq 0 [0x14f70844e2671e661927edf4091209f3deff7b7dfb5204ba59de3c24c8b3fb1af; 0x1f3cb21b23a1dd0a22cf841e0bf2c384ca0067b8e66c6bba4fece0c39aabc2109; 0x192eacc371e8ef2f999073ec3daf9b21057c49d39692566d3727b55466e4eada9; 0x13a1a801f8cae800bb776267dcdbe032fb1b2de65c630bd23d8846dc7f8da030c; 0x19965436a70f00b18fa355b22e93310589436bde9df6c0a528b02fa84068f7ea6; 0x1b83d97ae228790fdd95de72ca53580841c88ea4467fa8c388cb653f53ec3bf59; 0x1db29cb3bb5140d65d9805a805b666b1f6dd4d6b364034e11c46eb0fb5475cc0d; 0x1662fdeb032a37c2bb07c5eb8e86ed5d10fe98ae9d6336047dfcb66b2da050f67; 0x1e7d2a88ae877494f30756b2a3469ce62cc027521afb9329f474977dbd38dd2dd]%positive;
    GMul 0 118 0x13d5cb71a110f671392e965f9e4b713e93b04d92f3f0eaf518cdb42c9fdb2914c;
    GMul 118 133 0x17357b88a5362cc3952b04c31c07f9355ab4c24cde1927258301d8da679fa1574;
    GSq 0 [0x188fea7c1c2147c049fe3e8ac81bdd66536f232dd98cdaac709d8b131cc26864a]%positive;
    GMul 0 1 0x1ca483b998ad1daf255233c514ab7b0de3ebe9c8253f1fa9e09ea2bee37b6a5c7;
    GSq 0 [0x15451a4786392df86a2ff341a2a97921ebeadae77b49f8d0c15045af072ae6e02; 0x1bd8d2f4ab305158d0d29cd72fa140f442e26c2047f025005a4587ec2f489dbe8]%positive;
    GMul 0 1 0x1158a5903c04fb5b0bc05c81f71cd34228e586deecda5b5054b731c42995000bb;
    GSq 0 [0x1cbca725dfdadff274945a0c33db4da529c54e4793f057afecf94df48d332c25f; 0x1bdd160e50ca618281fb0a9193521fa2aa5fd5304f8029ee8caa8b9c426a136fd; 0x113d097f5e0f58de0c35b9e24e81abc9cc2c751f5e63eaa2471e67ab4a7f9ff8f; 0x1e072022e49c3ca1a247f31c48f62c8602d68b3fd229786dde7bbe862b4460138]%positive;
    GMul 0 1 0x100f5839f7fbae4d03a96481c4875218772943e975371cd1c7faeea4428348e90;
    GSq 0 [0x117d2bb2fe11ac694e3ecb19b002d1068f26e8f26668378fb3a363187d7a26cb1; 0x1f32d51e65bfe39b671e73edd9e2f331a37e6328eca332d434d3e794f03dc48c7; 0x1c23150389a4a2526f35184ae8f7a4c5e1f815647188d17790a6c2cf8acda6b1b; 0x17c5270dfab3191f7e85451e64fe3218654ab24f1030c746891261f464fa7defc; 0x126ed6b3915f831d5a42c025215de1748a6dca5da39068cf9f1c91e6b8f024705; 0x1da56f64a5e84867a24b8906f1d8eabf792255e0ecf279764a83ff74d77fc1f7e; 0x113977e7c56e0cf1327f7a044710d081232aa3294f0d342ea49c4ee782ecf475b; 0x1578e9f23a6ef63ea8a646889f9f3c59214392d75667fd84ec98f0e9fbf7a0dc1]%positive;
    GMul 0 1 0x1b709e9f9a2cc9e2d9cf9aaf58059f1db608f711417d3c120e41632a34ed48f84;
    GSq 0 [0x1bae2ec5e66da67c30b691eb08d3b4eea800e108d640049f566c1ea9245071a70; 0x1b9c1d8d5bbd593383a87ba3451120295a721c4e89897cc48888b58fe3148e8da; 0x112f5b66446ee7855bfe4cd854a7a84e353f337edbb15aab16e4371b4c0b2d7e6; 0x12f9b0027429fbfd054a407db25f9ce35e2112ac2d8d238cf2c5db86bc933b67c; 0x118b6c267a9bf5035c38888c538319b1871da2893143e77cdf1950c5fe8f7a1d6; 0x14dacbe81bdbbf25530219bc2c72b9efd1cdd42dad1ce74345b52eeeb662058e3; 0x1b9d2fbcb2380a9a4a19d2ae15960d4a74e49c9f8e481027fb5616418e1556383; 0x173e9af22fdf5734f81b31a78e2cfafa3c11d702c62fc367e88429a4cf96049d5; 0x1e91320ec924e8493edb116f7498e38e256e4921fd530cca5166fae17cb602352; 0x1ac31c723ec3b9cfc2c838cfa7deffcac3149a636477dcd08617799a2c0aa5c18; 0x137c9f70dffc5ce3744ddd33d609a450bad25acbbc4ed9f799c6f6108969d0849; 0x142a45d09a582c25c2232bb98a542029337aecc9a3de1e70795501ae7443843d0; 0x131dd7369fc97f9be33fffe0e263a77d58487c191890085f6d5b6391a4da1494d; 0x1a40d1c45b6105b594c96c10e91e2512378d0930b0bac52d5488c81d080519d5e; 0x11bd8f0f3e4427d666c7a14cd6d7bcb135a265c2dc55b5fd56bb48f3c97282ae5; 0x16e5f0544b9041c67754374bd61d74e19ab9b83be1380e792e1a2e8c7940bb144]%positive;
    GMul 0 1 0x1a7a486fc0add8e7cef860b765b318813be0889cd471439d5dcffcdd4f9a6eb1b;
    GSq 0 [0x139e1432784d57924dd478ce14ed3332b9cc93143ec28bf1487c4e51a231881fd; 0x1c37db24df77a09a4e0e8c3f8724ceae07e68d998b50b3549edab7a2902ee7848; 0x165e48e0342fa819972b8a78375ac1b5e9d46338d5f72e60778b73d12700a1b28; 0x1e0bce9b3ddaec0da8f34d1c5b7f9c985e7abae05001acdb55598cc64c8f774f9; 0x1c5a14075f4ba7f2ce5ae3f9f67df6a15c8451264f08e24b296c9ee5c275949f2; 0x16db65797e82addc6c43f2822cda212b9e4fe690ad2667183df6b458fd2c24f46; 0x193831d49e2b58af9e990fc8f62889c19a8a3666799d4d4aecae7520a98dd30c9; 0x176245f3073ca81d9ba6906af2741688b7196fcdf6faa8aebbfa8afdef7598527; 0x1d1697f0b606e04faef356e8e977b6afa29ca62fa62a5f297c826d53dfa1eb525; 0x18d0c2069e7172fc52966e1f171cad08a9132cd108ff133c22e9fc1984b2b56b2; 0x1aefbee1d2983f4e927d15dedc6ddcdf417e24c0e281b3ed9fbc3b37410289f41; 0x1892294ade30face9d414c033b63c26881d433e6891861bbb73b14000146fc9e2; 0x15e236b8a5fd7cd4150f8fb6cea5a9f5765d1cf0527f2f4336a380e8cb12db5ba; 0x1c9bb9e3abef05e13d69c52013057fdd84be50f0f1930babb0dc63f50545bb270; 0x106d1da23a3c36ed8faa3b1c9500698f6d28ef7ee63fe77cc2dd7f966311eeffe; 0x1b99c4543153c1225261cc099edb3d392bdf06709f523dcf174cccd9644b05a68; 0x13b296333842eba685f6d25c55d3bb483d21980c33635dd4d8af6d0f991d73898; 0x11e2f6c916a98d329366bbd12a24deeabc6357ebe7000f2e4ceb740252e90c295; 0x15f0c90c051176c133866c0253fd5f49b5ae5f1f4c45427fe5aa92abc21dc6a2b; 0x142965ca66e7e9e1dd324d329b7dc2272e657d5bf0211a0e6ed21551dc66a84ae; 0x1fb336c258245562395c28b459ae4213e66e4d81a2ac3e2914d9a7326c6e4cd15; 0x1985ad1ae9a179a3287790538ded759aa679cbeb79d8cdbbde6e98acb8b4bfcf6; 0x11c255b50d3660ab647f903ef477a2b86d52854bb0bbf1b015ebf891c1229cff5; 0x1dab9fb5ccdca38f8bcdaba5d0aeed4d5c46638cbd1e9bb264528aed967fa13d2; 0x1ebe8764be845bad20e804e3994d6812b0c8c53ec054c137e662f3e3bb0c933e9; 0x16153eaf28abe1cd64be18ccec3f925bb57e05f82a5b6b45330802843ad3e75a8; 0x170dd8af5b5aa6888b426572aad404c5bd425afcddf11f905a1e3adf564c53744; 0x1ec0809c8852195e94809b755b14e5f8be4f95ae46a7ba45a0bce288ba4ff8741; 0x1cfa1ca8528b8d5381e83272c50e8f4c4679c606ee9f4ade5b8596fa9dba8741e; 0x1202780ebb94f57b4ff34d177b8213c50a05d7f8dfd266bb7b6baa0e9168c6153; 0x14b36ead4e2b0dfb6c5457a3316f8a6581df68bd6613c7551af44d8da5b020c8e; 0x1ffbc6a5fdc7150a5214a5b5ecdc2859ee37a4ff8ae7e60a325d635051a9848ee]%positive;
    GMul 0 1 0x1ea589bac321fb9a794f89aadd3a130f660161370fcd087627a75d0283f485e6e;
    GMul 0 12 0x1158c6a3fcdb1b9ddb01b0802f640bd421310f9a324bffeb16b5f0de6ed5adbcf;
    GSq 1 [0x1e78f1aa0845a91978fdeea6aa4fc6e3817dbba8b30e24993787f54c6b05f53cf]%positive;
    GMul 0 2 0x16a8c27822824848b8a4e2b94b43eb3a478b05b1febd1f9331108b1656e316320;
    GSq 0 [0x1556cbfa51f056aa119896d1ca75c8ac0b229a3dc65613444c6b9d6d334600923]%positive;
    GMul 0 4 0x1baa37a1d8c96b14a4918c011e3a8a8dc1b3b2ba83836d48fe1703dc5d147154a;
    GSq 0 [0x1ac59f9976506a58db9e8fb62ef223f3b8ba0bc37c518c5c553feba4b218441d9]%positive;
    GMul 0 6 0x1c71f8c65f02a5f96abf52661ca97a65d56125b7c326a0d77f496474cdd924757;
    GSq 0 [0x19a0fbcdd13230e162cc213159a408dc440437a9555ecd636b3a914d3e1b637e2; 0x1939b61e68b1f13be10202b489f6fe011d8f68cf9d17e28ffa210a09f3718924e]%positive;
    GMul 0 8 0x1902c65443345f87a5a13ad7f03f23992dc90bfed9a691cde13a359a43a0515e6;
    GSq 0 [0x15941948ca026580609e6a42fdb32ecfad2470b382cf11d92f73f7782ecf3fcff; 0x10c639ca6e7a3971b26df5e47ef348eb1c851e29bbe7dc5dff8d02412a23b84d6; 0x196be79b033de39cf222928e39c49f35e944eaba6fffacfbf0a42d909f038a978]%positive;
    GMul 0 10 0x1dd587a174abfd28d5dece4ecccbe9a6d03ee55b1dde453822a89b007f9802baa;
    GSq 0 [0x19c0d47a21a6f57cba9979164d0803237fdebd23ad72816a16d30f5170ee9bf88]%positive;
    GMul 0 12 0x19b763150034ae3f0b6a3126a6339a4515db91e7d7f49c171bfe8919ddb8c7d39;
    GSq 0 [0x1ab0482377c84cdd92a01758daf20c42cb6f29ef40b8ec5db4b55787992a1aa23; 0x142d4ba55508a476ee4f3dab0a009212d4f455f203aee5ecd4f4e43dd6937efc6; 0x11b1dde48b54bd164fdc1777400569e5ab3d47c05d232262ffb516127006e4baf; 0x1af71bf12fe6f43a1cb0f17fd4935bd69d1c81904cca33ef3c6e996babcdcaee0; 0x1ea9f60cff063814ec1500fe772f398e51a1835cd59b5e27e271a8670422b57f6]%positive;
    GMul 0 14 0x1d1e4cb9bd34655c1db749959d1f57407cd08e113d5e869ce3e5e2cc1464ad864;
    GSq 0 [0x1cfa773cc62729c4c6d94950fd3eb1981e42ac71a3247b3e5f671f06e0e2ceaeb]%positive;
    GMul 0 16 0x120607e920db47331669da4e8117a9be343d2da7ee9dcc22dcdf61a52315be9fa;
    GSq 0 [0x1e82e9d2794446c226e455c8a5cf6bb27b866f1ec0bbd0192cbff384047e04060]%positive;
    GMul 0 18 0x1ea64e2b15f8624fce1a89ae56050ae032a2129affab906f77fc112471f2750a1;
    GSq 0 [0x1b6e1cc6628a128abc5b46eb9665ee25175534ada2a8a7be3aeb27d56a3e6f3cb]%positive;
    GMul 0 20 0x1e65bdb042c93e0e2b233f55745026fa6ec4ca189ed550557230feaa3f7edd028;
    GSq 0 [0x131f0035e3e6abc63219fe4a117f2c63cae5735897fcaa955a9b77ad6b402e1a4; 0x1f35588445e69466c901708b2b2ad44143b8874b1f71be6bf43bfa96b60d051c1; 0x1477cfa3eff704d8638e706dc1a973c0840b93505681691739e485711d483e8b6; 0x18f943fcce83281fb2e7a11fa49336c018d94d9859fcf9155ac33c90c46c1477c]%positive;
    GMul 0 22 0x1541a17aa91e5a2b3988a43e69bf08ef1c12f4c0d17f8a85232c42d7905288610;
    GSq 0 [0x106996e572e72cced11b78d61c2960c08ac991de6f079aa87934b8f9d924d8fd4]%positive;
    GMul 0 24 0x1e227ebbaa36904f89246ea52ca090f6f225dbd4812774ba77fae981ff60d4a88;
    GSq 0 [0x1126c92024e5ed9787a328998ea1c4adbd7d0d19456897aca12e71e25c6716d94; 0x1a2d28dd8af74bbe52a1ce666413e1a0c1d0d49ad8a02e155241173128f4b2ac9; 0x129b3138b036dd9476c15e104d7eb022e62ab84c4fc893be3cd7f836f90a9ea24]%positive;
    GMul 0 26 0x119b47092113c7e0e20a512e0f727abd9f22b0b6b332bd94d91e2ce3a43fea29a;
    GSq 0 [0x1e143143f7f5dc4dbae9538a2b684c168b119d1e65ff4e8c2aa164219d0ff9186]%positive;
    GMul 0 28 0x1b7565503ecf1d03dfece516e5b8a812857a64cdd014201584be8d0adb4621aaf;
    GSq 0 [0x1a2b529cb9c6fa2fc595989dfcfefd076170c920bd238f40000b58e91b5b7f40e]%positive;
    GMul 0 30 0x113587754bda479c1cf4e64d18d47152e43b68db6caa2feb9aec8e6fcc6c5116b;
    GSq 0 [0x1fa8e6746b923b9b4556f7116811b2497c0d341168e874a81fceace77b1ea7ecb; 0x116c4fefe833679962cc1107da40ee6cd0e4709b63ab1683bb44648523e2f56fd; 0x184c90046345119accfebcc48e6cec9ed802ba0156c501b765569918c7db0009d]%positive;
    GMul 0 32 0x13743d25b7f3f478ab42d31a610a6e26574b869e81d30f2a02bffc27a0d586ad6;
    GSq 0 [0x1c95060c275b957d9b9ca17a1d7feaa03f77009b255de51acd4d50b723d48cb04]%positive;
    GMul 0 34 0x15d6a6eada1b81c9070f8ce434badf97626fe0e4e58a4738ea9d4b5c8202d8243;
    GSq 0 [0x129861159ec9ea0d577c0684c48759c178502d206b42cbd9381f3e6e0757f7fb8; 0x17d87d10d1290e2e94425874b76bf0309c8d71d990b0cd66bef4b56636250efe3]%positive;
    GMul 0 36 0x10365547a4276f142b68ff23a81cbc16b09971dfb4edae4e1d5b23bee9f7d6ebd;
    GSq 0 [0x18a2e633f7de93b16bfeab22677c5d7aaa8f260e58e8b7069004c1b17c1681d31; 0x12881b983b72fb252bfcbec45793b8fbbb26d57dded9ff005fddb289afd2e0d30; 0x1147074069adf1803ecdaa223fbf64110c0c74c838b831906449faff2d357ac03; 0x1b765167c048ab4ec3cbbbf5f7a1a6efbb6b7d488d47c6ca7dfa305fb44b4c2d1]%positive;
    GMul 0 38 0x1d63a0ad64b120b5ba5b6c13778417f13f55b9ec9f22ba70eb30a56f966e9b688;
    GSq 0 [0x117eb19c3a00dc40f2fe2f5cb6b87be6f5025696ced79961a86a6bb9de8852669; 0x1c76c606f1f23d5ef51d11b63b245e7fc22b49b859008d7945facc4427c29606c; 0x192678b84aa7e059b9bed1a4a94a94a0db2611e79f1bdaa4beed397460a946773; 0x1fa3515ff3d6137bc2eab4f0a0a1a298c7a1c120fc12e31801cfeca70f7328ceb; 0x1eff18f43a1ed05560cec51e3cd0a2bf930df8eaa058f5319ca5f4a7963f9ea0b; 0x137816aa0244419f82cd6b5479f28599182ea8ae211b14d4c6f7b28971f825e73; 0x1528566d055a3cf1c1d44854bc9edbdb9c6ed8dc28fa2702324c322aedb040550; 0x1a81f88560fa95597edd32f93ff73218a41591641160ea5988975e6c432d7cb19]%positive;
    GMul 0 40 0x1e5a556c3c9e400e198126a39102fcc20f4c3663facb3240e1d771075d04e50d8;
    GSq 41 [0x1e78f1aa0845a91978fdeea6aa4fc6e3817dbba8b30e24993787f54c6b05f53cf; 0x1aa2dde2e6f1c3fac6dad097d295a0dd9da645a379057b91fff513ec650ff47f4; 0x1d22c26651194742387918ebeb36582d82d13817b761af8014912c5be4a8f98bf; 0x1822a6886281188df9495e4becd77ab33d23451ba500600b9de9d0f90007fffb3; 0x1dd3f6928fc9cdac16e572b57985fc5fa7068a91e31df70ebbb75cf5c67228817]%positive;
    GMul 0 42 0x159178efdc073c798b4acc864e8483cc58060dee954e5b49dcff630937b7bc99b;
    GSq 0 [0x1e2e291ad81111ed02bcec506ceb41ad2253be54bf09638700a26d53ab89a9e51; 0x14fd4cd0fba8995b24ad75dc8d4de90573a829b410c23fce8d617900a70dee9b3]%positive;
    GMul 0 44 0x1b771e56e2e8808b9e96407e70fae1de5e983a458d6f4be3f0ccd3b89076188dd;
    GSq 0 [0x16a6d820ec6ae690b258af37dddcbe30fea745493d7b4c8015c41b097eed151a6]%positive;
    GMul 0 46 0x1c4f68aa3405010fede8f6104c560c4cf48e7a7a07fccadf7fcf0287854ff899a;
    GSq 0 [0x17d9c4e3c009212cce5a9c2798c715809315c053a7a1a666082ab3639ae4a4b20]%positive;
    GMul 0 48 0x12a1a7cd7b75082709684650c7b8f65860bee51fbcb2d85a78e8065c41800e3de;
    GSq 0 [0x17c53c5a8c13c565fabcb14b0ccc7c91eb4cd38868edef48a9aa2a0718fa69084]%positive;
    GMul 0 50 0x13047783a85e3dd4dd201a6b5fb69bb2965bc3fcfba8069b4c7755480e3f08644;
    GSq 0 [0x1a7eeec767455f46b954caea76a0ba15263641052457a148bdad44f5b4722ab25; 0x19d97c277d2239d4564a5c411abcbf91f711e146b87cd34626c1bdcd49fe6c406; 0x1eb21014283205a19cf54fae893d4310c615cda44d899bde0e132854055fea757; 0x1c79aefb1a569718b4be18f735e13e97cf28fe2338dfd9961808fac656f0f1813; 0x141a6693d3883d887a2586647e8250ecee254cd64c77c4e32778ef00b872cdf69; 0x13ea64189af8cf0e1c6c4ac7d17f4d61ba0fc34787ba2bf8f461319e3eefacbff; 0x1c0b611879f9436d176aac528a108c3097e8c1613e570c6895ed114cc24d99ffd; 0x17989964c9be3e3779d3ff028f5c50c31a5356ff220204495e574c209c1543bd9]%positive;
    GMul 0 52 0x12fbf5d361feea8bd9fc94ae35bf3f6a76338c186cf6f576a067bea15d2a4c5d4;
    GMul 52 65 0x12ccb0c39650b443263c054f9fe32fbaac792b030bd6c5d645687d3d06e01eedc;
    GSq 0 [0x1735566ded3011e43e6db577af759984b851cc076645d1d1c0bfae1d69bc40ae0]%positive;
    GMul 0 1 0x1fc820e51c018441cd5ff94eaccba17b8b2cca10d6875e894bf50140c0bbe937f;
    GSq 0 [0x15bfa58a57d2964fe63b1a215b257b34158f0f51ec05eb0d331bcb1c6e2e8684c; 0x1bc83ace689f7cc84b7a1a7615d976ee8ccd993c8aa122aacd9f17fd5c9ae764d]%positive;
    GMul 0 1 0x16970b11c65eadee3f3c78b744d403fa878ee554b56765c1dde785f2c1c1859fb;
    GSq 0 [0x16b3322f18ed319ec9ef64a1db8a5037fb2970c552c8621cf3a4a9d4375d65f55; 0x1c33e31dc146cd394bfa1562cf16074fe10e945b72403d89dbbbfba19fa2692c6; 0x12d6883c04bf08d1755731fff5edd5b4ed00d99cac929bca0e34082084b892473; 0x12f0b3422544fa052ad95d80329909255cea5fc7be8d90dcc563f788423a137e3]%positive;
    GMul 0 1 0x1ad22f2e26dbc337b46c17cc48c6927bf4dbec3b98070fa478e8c5b5ec469efa9;
    GSq 0 [0x140146bcfbb3357bb1f0d2b337d5c44304035bb322113b87e07bd808a0b2b6d64; 0x133bf2242dca2eedb4874bdd5839834054c691ce66529c900c812855c3864ab70; 0x168b7c6b5d2f766b687ccf69326dce3cb1be2528682081a0e6a47481dd1faa45f; 0x1c6fd45e1686d246527e780d697908cbdccc9d6c1d3931727e921c5354fd25ce6; 0x1fba9ab5184271e0ac26822c1610ed4a0804ecde1a7283d964c4848085304c975; 0x18b674516899fc00f130f8feb9698a1d48a67208c81bd552b05e5e5e2d6e998c2; 0x1301a1aa8b002e2aeeeadb73d3db3b8e67b3ab2e8302907aa7c7c9a39835fb366; 0x1513b2c254309fbe6c06a338d7ce656f3298d318709f50b887f95b6833dd4abf5]%positive;
    GMul 0 1 0x1a87dc9cd85a58d1a4c561634e2c12261cfa1cdef6adef8ba776cfe86fd8c3fab;
    GSq 0 [0x10afa777fc59551be1fd933a5cb0065311e3444ff420dc347a7f5ea87f65f0994; 0x1ca83549d89a1f4cd5e30d5b1e70748e6c11dfdd76cce8c88a6b70ff657f56000; 0x1da5b6d2a1426b97efbf454d21df9d8f24af866db6a74f0645669a5c671a5a2d9; 0x11f3d18922f85c8bc32adefeb7fdf756676b16ebb6f2e2d74113e9de20d5455b1; 0x1dfe62beed46cb3b467a140ee8107277a33789880c09ff8f5bcbb55e60d4e12d6; 0x1a4d29d70569133f2ee5cda5fb5b54e9492eee7069eea58873d1333697d59c40b; 0x1c647d978f9aec2fbf2a8f13c34805516589d10849aca7d6cf03e73236c048358; 0x1a1b863442a67b429b52ce9c4bfdb1ba94fce8e9a3cf5db6b948ed607355fabc7; 0x15ac569b823ea731e3948c8338e1365dfe3c794f5a5a325bf931e40e10c3f7b6a; 0x12e8bdeee8f5cca1608a20aa05d9b05d9cc8480ed35de09d13878089886dca2ef; 0x1758fc68d2c5658fdc485d201f148696d76523d6714013a14ca1d7132275ababb; 0x1e53c4ad10cea1c33cd56f36640d559d987912e07d5fca114b69c596eed4fc509; 0x1a0f60e0beefeaba095fac1d17ce5fad1a4e27c88af1c1bacb4b4c77aa00a30fb; 0x14910118862998767c85854156ed1440cc8319813bf5acf8e28b0969e8c8a1943; 0x1705f54d6e0ab382451c7bb86d3c588ae3e0db699a37623df0073597d98fff84e; 0x14510dd3ecb09d0c89e22f683e7851f263a94028cdb08a93d9ba62677cf8ee11c]%positive;
    GMul 0 1 0x137fe0ecb0317f607575a66162420831f3d8c828694542642752abdbad5939599;
    GMul 0 10 0x18ea8074a611f4ced1fd456af7679380bf31155617e0f638bf27c5f463e4dbfc1;
    GSq 1 [0x1041fdf4cfcee9a84b010416ad0aac37d96b72c60734d3be7af1b12697d7c502a]%positive;
    GMul 0 2 0x12b267fb46b6f99d8cbdd7e094e8386cc0a9d9ea4716a466c23240d3ed5894b15;
    GSq 0 [0x1b68b7bdd2a31c488e3b7ac6267660e93532400e0a7a501a7e3ee220d699eeafa; 0x1c5a92367c208119828991849b163bf89e71d2a61997b2c35913c92aac4c06fe9; 0x144845045bad9d9319f5636447e2ffadf871ed20a66bde21bb3c33e9c9da5c7ae]%positive;
    GMul 0 4 0x1d1a205a0a5e238f9d5c37c374cf2405f1df1bf4af4db24ca8d0a8c021eb3322b;
    GSq 0 [0x12a88980a69cf34684c2525bd6ee30c31bc1cef4585ba8460ccde0d5a6099de16]%positive;
    GMul 0 6 0x1413e81098e770e2e3f9f095bc61ec7dca13c5efab9b52bc4ab4d9ce047c633f2;
    GSq 0 [0x1186beb53275cd5bce036c7547f6ee67230cbfdfae44e67a671376a06bc515b88; 0x11c3ac5005773482154630e3cf13ed54736f5115fa4550515b3ccf5aa4f5b271e; 0x16964fde517ccd04907546d6b8dea6a66147f33b6dc5de34219fe2e869f571add; 0x1336754e304b7d97ee2ce03382ceff83ba0bafee22510bb0589949ddc765afbe3]%positive;
    GMul 0 8 0x1b62f4ee0e10138339bfb885b76e98562a8893de258023cd18c9863c213bdb301;
    GSq 0 [0x19450cf7a94ddaeee685177888a0e68b207c60d3b23512869b67356846ee5cff4]%positive;
    GMul 0 10 0x10ac91c56cc8f264d235150888cc01d6b233176645b9ff89aaa9490a24d83ac15;
    GSq 0 [0x10b77e1a18cd9005abd00b3021a92684cdc665ff2e3e8ec7def0a001bf8922d34]%positive;
    GMul 0 12 0x14486838f648e9b135bb38100d10150dadddf2194dbc4d1b0e6c5a38cbadce3a1;
    GSq 0 [0x12ecd8bc9b22307bd37123cb9ebf3bf91483daf46c005b571b92a9c69bd0c5d9e]%positive;
    GMul 0 14 0x1578fe2b5c5691edb435c0e5adbfa2577b80ca7c3636163686a44d191ccca481d;
    GSq 0 [0x1fe2aae185123d8d4871dd11187f3a93f4226a48e74941bb51f243359a96b110c; 0x1b4ee5e6069c5a1bbd7f6801acd24b7c5c82322b2ea66ab3511cc95e75c5b24c0]%positive;
    GMul 0 16 0x189b209269e1ad3ac0fdbb88a5d5af98e4e4b8ad733b4503f9d9f43b01ca4b806;
    GSq 0 [0x193dec4e7ea141d0e7ef01ceb3b1d7cca658be88a534f46dd706d07ca8d915285]%positive;
    GMul 0 18 0x19946aa96c10323f4ee03414326a04d1e7afa09f9aa24b88e9b713e824349ca04;
    GSq 0 [0x118128e37c5e4b79038a948cc7540a0590176d3b4521faf61ff64ac06cb3e24d6; 0x15ae8e7c1cb4ec0edee55a4d233b53f18e298095f5409484241a225d3900c25ea; 0x1129e6d909d5ea77d030719b425f309f287f55460b79cf889046dbdb61256676e; 0x1c8f68c177818ab0474dcbbeb0f816385c7da55d3f075e242a5f035ba6af6660a; 0x13f5adb6642ebb2eb0f04fb48df28f569d019dec9397b95227dd1ea25e52c8fd6; 0x12ffe75ef343fcb10bc894849fff0a81198e8e6d7ffe9b5e159de1619bd093e47; 0x17bdbee9085fe2617654a645b9e9fa4b216891b4eda2d680df45ae4192d2d3f60]%positive;
    GMul 0 20 0x1581da52f86332ea661bcbb2b555ce0f02e9815440881e2bf78b880b86010e91c;
    GSq 21 [0x1041fdf4cfcee9a84b010416ad0aac37d96b72c60734d3be7af1b12697d7c502a; 0x1fdc5f1219569511b3101fd664e062edd488dd3242b761c4e4597fefc775ae502]%positive;
    GMul 0 22 0x1d4aad607305e6b5737d8d8891314f222de722eaba96cff6d0ebc84a819acf126;
    GSq 0 [0x1141761f14d1cfd9dcc18f6a0dbed94b081d762b1d28f3b67348dfa7d8a301db3; 0x1bef98d65e2770c715a878b6d7002d872e90f02c563818ae9b436effb580e1c7b; 0x1e49b880c9427e6db95b918af67c12ef9c38c5ad227ba222d37107192d1c1f88f; 0x1e6f8c6baaea01ebed7d271f7db5ecc7c27a57e601fe5c1b2094780887a03135d; 0x1a893b1891bab46130f5876008ad2622980b26637b5c2dc21cab4a3aa47cfb2f0; 0x17f75d5aad45b3b902acb195584308187c74dff5f69f662dfcaa8daa45c03a379; 0x12b7775a1c61a4c91f243f90679a0c129923e3dac705b948bd8a0a2f57b9650e7]%positive;
    GMul 0 24 0x1c6450b829be1a76226abe4270fff410101352a4c92d48efe19b67cdd3c86a7ed;
    GMul 24 35 0x12a98965e9cc7a32e9b3c6895a0d4409bd3f0f32ff0795458fcf2f5e3c2e8de96;
    GSq 0 [0x132a06d91ad2701be0e4ff400c14964307c19f352f32f4da1b9629858096e1d75]%positive;
    GMul 0 1 0x1589c3695eeca0cba344c60ce2ccb079c089d52a315034871151cfb89658c703f;
    GSq 0 [0x18f3b749285c521c016e566f1c434a3098e06a869d1d0fbbef70cfc6279daa788; 0x12e6f60870e393fa69ad4301ae0b5be00742f4ad8e2f662d80d053b6c34a9875b]%positive;
    GMul 0 1 0x151be4029ace9fdfdbf5ca05ffa70b5a63d369b39a75c5e055adc6bf571f0f01d;
    GSq 0 [0x1c1ab7824f2c6339a7ef7014114008474d0e2d0cb2baf10f27ca8363b379dd014; 0x111e55599dee4a9c5b19e38947eaa8ab5978506b9790fdb5e18f7f48bff35b63d; 0x19e7e9186df425acfbeb12299ab21ecb972d8f987a76c9ed65f572f1907acfed0; 0x1d91c47f8c3a4ed2bd28a5373cc7055649aaa3d3ff0e5d4f5c6ba360efa5474b1]%positive;
    GMul 0 1 0x11d2368cb6d97ece065f2d79aa4b65d2000253d3cbdffb50e988aad20345da3dc;
    GSq 0 [0x1a2c9c991155259987b922c4a4df9710e33a0bed34a1887e7c7e430b155f24517; 0x1d169b280d13415c3349f59ac72f449c1b13915daac42fdfbd8f211b6c897d94e; 0x178499a30592cbdf294a884a8451e470e3e1049c8391c370aa00edefc5e0a1b1a; 0x1af5d1defcb0c111274bb79c3f91cf3a3f5dc7263962ad1f0d03c5b142adaa8a5; 0x11bf6b3384a0a93716fdcc2320d796baf4a3aceb60b0d250bb5be0e3ec996ad21; 0x136902572066116f962d14cb932b63e7d02ec10bdaa2b06cb510bc47381a71264; 0x19cd33e6f89241809232193b050be3bae0e65ce8aa6a8878a2c1cde88d315f1a4; 0x12437f10deb08171085d49dae085930c5dcd622ae917c04a4e4ab62d40a2e20f0]%positive;
    GMul 0 1 0x1b676779c1ec18ee71ca799db6f5623d0f6f65e508c7029e05dafe16943ddddf8;
    GMul 0 8 0x1db8349df0a525530f958cda0017f4991f9438a91014f8a3c470fb9e02e7fa255;
    GMul 0 9 0x164af5832851e53068eb1596206fe8aa365bb30e5c4a617734bed7cfdeeb096a1;
    GSq 0 [0x19cc95f4668fb6c770f5d1b301014be9ec53b3e452823156c225714252a608bc6]%positive;
    GMul 0 1 0x1e8d4860a3ff67671d11d8e77e99e7deee6bbb0b7a25547052dfbbd36e8d931aa;
    GSq 0 [0x16cf95fe32f13326a8116841d0d2502077dc55cee963dbea1c0e07da55255ae69; 0x134097a3897438e4827d09b4775cfc3a4aebb1a89398436d89427e05d317d2d33]%positive;
    GMul 0 1 0x1f03d401fe80611e1b4255b5e1d0ee98b94020603bd912c55abced46c9c6669ab;
    GSq 0 [0x170b907a9f451d21bc387596487fce996e41af179a23a4047244115ab790ae899; 0x1bf9a4992e05c0bc2c7a7cab1283e483ec9308e5af702e8dd33b12b1eba370c6f; 0x10c99b0868841480b93df9e37e2a64141206e6b326772881ef8c1333621269479; 0x1b2e526a4906c507bf285d8698b1c55e0a0f33279583e01bf85ce11810f726b38]%positive;
    GMul 0 1 0x1fdb7756e6ac858fd6732aab4918d7df125c6c922eca444e8a2a0bb43afdb4f25;
    GMul 0 6 0x1543b010a5f38e0838d7c371fab914c527df0c6de6fa15516649c982e0bc2b105;
    GMul 0 7 0x14f83e15a82b45412bc447bed397f61060e5d146095fc7d792adbde268be952b4;
    GSq 0 [0x1aaa223d8271714ad7094e4575d085618f285e65abccd8b428ba7c1b6444f6377]%positive;
    GMul 0 1 0x1214a2c481a218440dd2e2da23d548493647d619309c13e5f1f76a0adcf229f79;
    GSq 0 [0x1990c3517765d9553a6e69c9a0112cadb14500cd9eff6b9fa348584e173d90126; 0x188499967a2cd673809a5a7e4612d2a9e67b22248cce736ff6d42bd8404614e2b]%positive;
    GMul 0 1 0x190269340057d7ee7eb21d977cf20f3dc38da22c5375471f2a0a830a7ef328ee9;
    GMul 0 4 0x112e43a874b6b05be0b5c556f614e185082a88b105afa0ce7a054e5faf8b4fd28;
    GMul 0 5 0x109b17f5767b72e1a3c673d4c3e369b20235e972559753b37fdedc95dc103781f;
    GSq 0 [0x15d67dbddc9df51acb7182e82583179568cf59f70cf06719e8a8f3bdc735daf9c]%positive;
    GMul 0 1 0x16ec9cd129895d052616a564f042be5956a2075f39c3d432635ad7e8b44cbcdcd;
    GMul 0 2 0x109b17f5767b72e1a3c673d4c3e369b20235e972559753b37fdedc95dc103781e;
    GMul 0 3 0x154d6a48aae687fb68b7f13ce6607e276afab085596734aa97762f281b25ed783;
    GMul 0 0 0x154d6a48aae687fb68b7f13ce6607e276afab085596734aa97762f281b25ed782;
    GMul 0 1 0x10000000000000000000000000000000000000000000000000000000000000001 ].
Definition gc_xoshiro := Gf2Cert 0x10003c03c3f3ecb1904b4edcf26259f850280002bcefd1a5e9d116f2bb0f0f001 115792089237316195423570985008687907853269984665640564039457584007913129639935
  [59649589127497217; 5704689200685129054721; 274177; 67280421310721; 641; 6700417; 65537; 257; 17; 5; 3]
  gc_xoshiro_steps 0
  [(59649589127497217, (189%nat, 0x12b0b5d0e0d5dcbfd343a0c7c13920e58856efc82f8b6f3e99a6368bb225afce6%positive));
   (5704689200685129054721, (133%nat, 0x10ca8fcba3c0dd08871d4e3f7290e3e7fb8436109b90a55fd4bc6fe9d31b611e5%positive));
   (274177, (79%nat, 0x124d5461cfd63732f63b6b60adc840b312db07c0c8c7b46872d3955d70f9e6ac5%positive));
   (67280421310721, (67%nat, 0x1c3bc6f4888606c0bfb4a6ce96aa43d28506b49c1c962aba2928641dd24af8cf8%positive));
   (641, (35%nat, 0x156ced9120f236c15fdd49ed161d46abc0269afa58693de573c5dcc0645c4b0ff%positive));
   (6700417, (31%nat, 0x11c10854fe79f6066b6b1fe5c68be2282e701b5777ef01c8fd5b0ea5458d18c36%positive));
   (65537, (22%nat, 0x15b7382b05dc5a20686e618650a39fab806017ce589bb2d98cf9b5a05139e793f%positive));
   (257, (14%nat, 0x1618e9a9a97b4105e9870464ee696824b10a336ec58f59159b1165cabfe23cd76%positive));
   (17, (8%nat, 0x1f4646ef27133b2d46393a4c40448d75b8f3adcab0a20793ef8bb26f5b81e7ecf%positive));
   (5, (4%nat, 0x109b17f5767b72e1a3c673d4c3e369b20235e972559753b37fdedc95dc103781f%positive));
   (3, (2%nat, 0x154d6a48aae687fb68b7f13ce6607e276afab085596734aa97762f281b25ed783%positive))].

Lemma gc_xoshiro_shape : gc_shape gc_xoshiro = true. Proof. vm_compute. reflexivity. Qed.
Lemma gc_xoshiro_algebra : gc_algebra gc_xoshiro = true. Proof. vm_compute. reflexivity. Qed.
