(** The curve [y^2 = x^3 + 3] over the field of [fq_mod] elements has no point with
    ordinate 0: -3 is not a cube.  (Certificate: the chain of squarings computing
    [(-3)^((p-1)/3)], which is not 1.) *)
From Coq Require Import ZArith Znumtheory Lia List Ring Field.
From Verif Require Import Util Algebra PField Primality Bn254 Curve CurveAssoc.
Import ListNotations.
Local Open Scope Z_scope.
Local Notation T k := (true, k).
Local Notation F k := (false, k).

Definition cube_chain : list (bool * Z) :=
 [T 0x0;F 0x30644e72e131a029b85045b68181585d97816a916871ca8d3c208c16d87cfd41;F 0x0;F 0x0;F 0x0;F 0x0;F 0x0;T 0x75648e690da5a4d2eefe4588f7cfb7be364804214818a867a00;F 0x30644e72e131742402e8e0986db5460cf927590a1dc3f9123a40c3172247bcbf;F 0xbed8a58fa34214fa1edec6b8bea97a723d359b141ca22e45d9bcdbb19f1e37;F 0x99e92bf0e492fca9575e4006edfe925cd3b23a158ecf94697680a7d6e2c7424;F 0x103babd2aae604308fc589a24114de12ab9e0d3a6306f02c31d273f10543180b;T 0x626f91a6f00c2951d1b0ac73aa759d72188746dc35f2b026ef072350bcdd259e1683075cc2a44be6e660f986e48afb4b328cc170f092268645ea04fb3e78c4d;F 0x12103b0e8cb059cdf049ee703ae8c4255a7e4401898229f4a09804623aa9e272;T 0x51ce2ae801b01f9836c9847a6bad5c238cb40076315e9183a04dfabf9cbc2bcd89c2f8e09874d9a784262f31a721acc3394803dd72a4970ea586118b619b7ce;T 0x2ead54baa2ec72d564fc01c3d334d8023cc8fc5c2b3fb2b665547eb08e4e9b1e86190091f9dd64f673bc1c605a78457ac71f7efa0f3c03d6b7281f86473550a;F 0x30d1e8d6482a6529fcfc2fde2b40823881cf99c2177dea2de48efb839617b6;T 0x6fd0c8ffefe06f42e833f1c8facdda97619d3a49729f1bb4c564ebfe38c289e16452c6500cb9f74c855bb8bf174ff0083002995c993ac47a0d05201ba80aa0c;T 0x310918e11f1197f3f55e95272fc9045d7c529edfaa97f225046bb70c24eac8d20c2349068d4b38305f60836e70656a733340bc6310be6fc0aa8c6dd32f997;T 0x1baca40a8a281b0dee366659e1efea24fcc25ed0ffe6e927c12f67e78b6b85a6e5ddc4291ed6a3dd62d1f3b6391ec14dde218964f6076fc6d2e4a5a5c457609;T 0x1f4740549d874e570ed487b7330aff3da22b58e9ca80c25c9fe6b58d7f07c325afc59cecf6d6b3af62a2f512742beaa7b633d595ad514b8d946429ddbc353e8;F 0x578139291321e192e61dd94180de20167c7c89c97967739ddbf053833e540;T 0x112ffb08e7a0d79bf19c860401667b4270a3c3439dbc9d1c22131ca8e1c76c25fc9060efef78c8f0c8271bd812366bd31cf76720fa8dc31133e6b62e060b426;T 0x3cfb821d5b75a3996f95202ce2a1b70f2240b08331734a353add39729b146e6e43348f27d8fcb1cb7916e208fb8011e37e7ddd301943508032a89b975a4404c;T 0xa84841d3b6007d8bfff83de0ea277367eeed12bbbbb0816c39f648b600cf012122c9e3a3162438c942074b4a545411ef5a1667f7676098cb454f2d3466446d;T 0x10792652679405d1fb871fb485f3d03f9e9422badd83a1d6aa3c51ef6ecfb7bc41554fcc8569293a836ba50c6459ac512271ffad083ee69256304ece6abecfd;F 0x3c8c5fb9c97c349b7c51822c43331120b39f5628e244b113ba9b0af0972bba2;T 0xfd27f866a15140dd35b6f368df3c2fbd7881d079a0ea90b30281adf46fe32f049bfd40f364fa201b9a31552100efbd73a50d9d0e61f8233be519a3fc61fb0a;T 0x18154fe471eb5dc4d519d6b90ef695ecba3f65caecaf8955f1a1299b544db7932eaa06db7ca31a23576b53cd963d105f4d873fc37e0102b9bffdbafedc1efb;T 0x277db1ab3ff6a9eca70b7472bd15f623589b8f7448db6c9b19a618a0347958096979d0d252043e305271a8237586fdb96151640af5901a2ccab4c4afd95c9;F 0x6e1aceb3083a4ff7a3eb00e0413043aa6137f39d79ecc70577e69d10925ba5e;T 0x278502aad89e817d04f1b3ae0c688b7c68c19d4ca8dcd552909ffd5ad754c2672bcf2c62ae55bf1ca4fb7a4c12c568ae2724739eaf7533264ef28f445f0dce6;F 0x4a24d3659289ce1ece4f0b9de72e95d43c1273c0fcbd6bea7615ef471f1a1d;F 0x105fd5f7c14cf37ae56d5d15f1db0d69d16d006867bcfd4b4b51086eb4cf5c23;F 0x1332d680fe5d7d1691072fed44e93673156cc77dfda8dc2ede587a8ac574582e;F 0x1f09321b02017e20b91fc1719e4a489b461a88025bbce81e0f5eefa8c5fe37c;F 0x1a8187e212bd9daf6620c42a602ded65b255b3b22843267c5be794bfe30fac8f;F 0xb6e69f6815b56bb0099e79a8431d9f50dc29afb0ca3de426064721d27dd4c;T 0x2e0155618dda459c2ef06d2a7a94bf616167d8083a17e7b51370846049627bd9fb2de2f52aa03af302dc00576506de9496bcd36d0026553af3c037d1650e88b;T 0x4eff28525b7a4b7a73e2935a4fb03bc123bb292771b801d900ef3fac2b3ad198dd1f6f5378665aefba76be84a247906c01a3a500deefae1658ae546c2bd064b;F 0x5a5994d7434fcc9fde1bb8b5190ebc8b4a1e6abc6cee2ee3fcd877abc9b1561;F 0xc6b83b51c7974ee17b560fd2c872f78091768e9ffa478317305958d0db71fb;T 0x621273f09a49dd410f64924a8176ab41e9800c011810646d8339e9428e3c7118194cce1af064fbc6beddbf8ff1f0bd88ae481cecc579bec24d7e84036f29307;F 0x472f40a8219a216a8987bb581312706dc3907b16a1e7f4354b0582a26711c3f;T 0x55c2b52b8240c302727ef0ee849e9e0a10898c654ca96f5749945cd0bccf0ab6e013043ed87eebdfcc1e574e0d3c6ed5306fed556eff4e1ac61f5a8d38c8acf;T 0x1c0a2d66fba260293e15b332c5fa994c9ae7df033888e24db9f162df78454dd9f4d56944632ee3973815662dc271014c7414695b26b3c8a7c1ae586be282890;T 0xefe7b859c8696cf9fed63f973afbef62aff888b47814e4fa0f4250c0bd610b461a1af214c35df23e58bd3ca785d3f135f6f2e9f06f9eb1bcd0385f0418684;T 0x1059718fa5ec957aeb6610be54acc6b3a4ab3113ef7826e67ca93b605a51610f15d1b28a639d9ec5e939ab429195a1027e278e6a1cb7bae7f1baba2c441e35;F 0x9d2449a8be96eac879003e378015259deb5a8a45c6a98fa05937fcd62cd3222;F 0x3a96d3ad6b6198bad3a87e4454789d27a9ff633fef8608335830db0601c33ea;F 0x27fece4dab17704bc01e164b33d07b4d155962cb754223f8109f1473f66d92d;F 0x17880441f56ccb2df2ec77d89479238887c438d9ea1f07c12e6a4c9127d6863f;F 0x2bc6a5548cf5061878b1107cf7729b61141c5e732dcdf4fff53ff833bd924c;F 0xaae70a05488688ac33fdd86db0c5157edf2842ab3cee66a7f82ffe2020821c3;F 0x17a1e97d9b1aaa213861a83ad8b9cf6ef2afce0620a70a8f4f6a4e761b3e2a2e;F 0x231be12f75f8210a8aee986851872d4855a3e59eacfce6cb55efc6aa5bdc06ab;F 0x1ee251e9de2ceeeda57c708239c41a9fde1e257440ba2d7c8a39f1d35d26a0c;T 0x4796da750adbe44dd1e2380e756e66556a3a6eb6c0a5bbb785d28f3f4365b9d59d0f902499ae98cd263e9aa28d2e9bd665a59c718e3cd4c0354a6e42fc32a90;T 0x2d999c79f51e771dcb7e864a290d2594f13c860e022ae0503303d45b26ee6522c518e78ff096af38426041f57e33fb264b8ee75339d6fc7cf4e18678a7d9f11;F 0x27121e0a853d84d57e5857db09033999c3ddb001709bef059c54b598e592f4b4;T 0xf03a78cc54057c5ff3264197c518147b46aa0a62685d27cdf09fe866506e3158b7da23536b00c6c8df04af3ccd991eb2e8166485faeea28f693df258153460;T 0x768a42738408d84c3a68d788e2f87228e3e0781cdcff9052bac4ac0f9aa563677ba68cb111f1e5246534c485b15836b835c8ac53d4de1e8695be4282e9990c;T 0x88b5a3c1b89c1c53f151bf758ee485b40667611071557f64525ea96a4db80e913a91fe31b0d8ff78f7b750a5d7659121386c7c94a866e4e571bf924bc009e4d;T 0x84cc21e799f47a1dd6d4109818544b44ba2a93730e4e48bff8e38729c52ae0927b5a525c463140d70b660f39f8f6daed552e6ae47af4d9ddf52d1214ba197d;F 0x1991d5748f4ba567a50a191d6261a4b194d8ac65e7dc736c1c3206bfa1441b7;T 0x5c8286f9c016373d80268dece3e5c962625f918de9e5d34fe21746a8a5d6cbc059076eacbee529e6bf26f0bf07b01a54a9e54facd45d741aca31592efa2ee39;F 0xaeb630ccd7a40929ec1ab0acb1fe699f09687d6d167ffb2db5b48b81f7c63;F 0x588df597cc921c3459681b694ab2c69804dc4c58c93ede7fca9f8f95fa63b28;F 0x1383d931e90fdc1a6c0698f6102167ea3b4c716d0351453e4dd179e8b04335d;F 0x769422911ccc7f9dc8e62f83d2901a524c13bc081df4042b0da11dbc0d04ccc;F 0x22370a212c2e137eaa61723d54ad63b453191659231321f4c610bfe3797248f7;F 0x256d41b70bf23b5f2cf8d246bb088f7d71b743b3c8b829f693176b5726c761bc;T 0x214063adb677a25d9f5e7ef8eef88cbc149686d103ea7b156f4baa2e7510fb13275467356b839aaa761c145267e1f5940cc42ce642c41a6c94dbb29fa846a9b;T 0xc99c3b0842d52623a5dcdac1fd491e4672d3bd7bf61169437fe668e589ae871325b21b8488c5dd8546dd73642c99dc569166d96e65f29db07722cccc4b24b;F 0x9a83a7607856cf3726b067a7881d8cd007c417ee0e9fbf41d47115e4a82c4ea;T 0x3da5c6b205b97983e70e72b2f9d1501037aaacea8ccf1a2572cec6fd09788a0948337c215b391ffc6dd062a25a4f2ad0a7251f0154fabaa0e2a9551286319f;F 0xef5ca3dc936bc9b9001f5d28c14d727b9a2890f872272590a46c13ee274f435;T 0x5728e0c15c23cded9997e4b186535af9c3f56f6e8ae3c3546fe4e39343f6579a58774ec5b480a2ae65bb16562cdc659110fb13e8b1cb01bdfac3a9ae141e830;T 0x3cd0ce4de7324a3f19ebed6270a162472ca4cda57829a239475602196f1fc7e1c8838ac710bff3b033b74dcb6b7dc9a1b08c3345d02b5cff7c56114809f9533;F 0xbd1baed07cc21b33ee2da99f931d7b3cedb6d689255d6adb081787bc8863f54;F 0x3c14639db4a3ff16cd33295099315811754b18389f3b205eff1e0436f846130;F 0x2d9c18914658ead5a24dcad831c4f3e56461308860e2a39355228a14f03f82ec;F 0x2907d9123cc51edde6dda2d8c7455df2ee568025e5510bf14f4c66a433158ce;F 0x1a7fdb212e3061a043706caf58b5b252d745fe99f756bca232482da274962282;T 0x44e1948c828522c1bf2d392ceeedef75470f18afe7597d2c8cdc82045cbcf3ed5bfc6312cb1be006b6befb853023a234a76a2dcadbf99c4fbaac772331b309c;T 0x6af88afd7284e927b54dc3e1726c0a3a5b438d42536c7c807bb715b24539d5d81cd0f85ccde8aae8840fdac7158db4d1bfd37b5a4cd597adafc27843870d1;T 0x2115e4d804e4979e75aafdb2d5ce9d3cf6fabdbead5342d39219717aaabad4a3e1d10d11801a631654d24f7217cf650b9e10eb936f56618c57c4a99a6bf1b80;T 0x376a2104b5cd1ba7721389d6d19f162ec658ec1a30642be3eecd8ffa3a5bcf2d66b33972bf9adee96c217d4fb4741747f319e3a6bb6c97f2a94bc853ca02bec;F 0x2bcdcfc46de79883d8056e911bfe52ab5600f67e35c1996b852b9d38fbf065;F 0x2a6b5b7315c18a376e40549896c94064ec527c352bf12b61b6dc9376b86c7f9c;T 0x2f33b1bb993aca8a27187cc8027e676fde22aa04f12282a3c75ac96288378b35cbff0fb9a13dbd5c832089695231b19022bf12f836d6fa2d241d03aae1330dc;T 0x18c4e8d695704513e934726cbd3683e1be6590189486f4c2dbe4179384c2d989d55ae54f4b57b2bbdfb43c526893eb90e032e560e0840edd5b03d6c33f84d5;T 0x85d7543ab8977205515242578b2da9519b294d1553717d45294ce8bbdacb1df470695465c56fa8e7da9c39ec299b33b2d322da0a85d4c74f7bb6cf3a88cd45;T 0x6b4fb22e6f4eb41b162630aaa383e5d4088f0791de381933889e611d474ba65f9ed75ba9b96daa5ce6b218e129be2a09d8a23dc9a29da38fc0c23d0b78eb7f6;F 0x1057030eb3534b78073824f1cc1b301b774b2241f8c8272156090a9f3c2e4286;F 0x76c34f2bb092e17c9d1c5f84c5b02cd4a426ac389ab9465ecb8b93e9625974a;F 0x503b18de8c3e73df1b7490988f58674833f061276286359cca17fd4388ffe10;F 0x236d9a65471f63213c65b4f9c6488e10683e546da357c7c25c7f2aa6b745fec1;F 0x1139f764da208af207e53d5fe8909c57e3479d415e10d5aeea2f6cefe1c0a425;F 0x48c99e58be9202be9f48fe68127140c338b2e057df4049a67bfcd85b2766dc2;F 0x7dddb1a488e7c383b7bcffd795f8b19be6f3670acc98e1047f6146c382650bb;T 0x781d45ccecbd9f62eea08d8d1fbc99b1c28bbed4c7eba6b10eda970873868d3bfd9e8bb179b515150a36a8c1f2691f0be97bd562419068892132840d51f70e;F 0x85167affd297330aa639b8e8f29f8c9e6d2261ebfc39d31a59e5958ceec1a49;F 0x9a24359cbd6f7ccd53262c2f38bfe64f3d032d72c293b9b945af6a575e2a444;F 0x1d1542643db1f7d19ccf2fd29c9961e11222d1c66f258795b236112ab5bd4191;F 0x1ab31ad484a147dffaca2f565ee916112bfb13bbb97305d139ba416d94b0210f;F 0x5a86a433b131ec491e325d1fc312e382589b91f25bd1385123ea7e92b2daa13;F 0x7c4f3893c0fa7d644f068e39ff4462fec609e201bd1975b87230151b05def8f;F 0x60bc86597de47480dfd66b3acc3ae1b871b8f0899a52e96d2ebbd5c083adfe5;F 0x55903c7273941be69328959cc394d46c9f1b606467a18f3f2b27d5dff4b0167;T 0x87dafd857d7d041acaa3685f6fb434364039bd9c74757f600cc6d49c6a7387fa9b01869657977fdc41587373dbd091240669dd6f01fd8dd643f8e2dd26d01c;T 0x5e71b583d4d143363fc6b98928c9a73c5c3387895e301660c41a82835b80163bb65089e9ecd0ed1625f7da59fb565cbaa6d4a37ecf1ee83d6f9c3e999197ac7;T 0x7cc79445ad6e93dc72736bff3f49d502e3e82d7e896a91666a4ece6ff4ec5b20269195052ef28ba673cf5938bce619085814a23539c7e68c4cbe15a12ef3ff7;F 0x8e161882431aabea861351b1d83c87a9fefb08a829f3c9f2a80dc8ca58fa76;F 0x1677c8677556b5678466f8a31d4c293402026a155c690f0319f45f2aabcf7200;T 0x632a89eceb9ea8e72c828627a423f585a470cf6e70fefa683e2fd0b6a5d07cc8dceb593c436153d4bb099b0f6c623566c7688bf9e878b080c5d223a38be8ec9;F 0x71731da3e2b89e406b956900628bda1d43dcd31a7db951c31e48ba155e1c9be;T 0x5848e0ea43a029359645b0383e09d5b043d343daf68773c6893947290372a9e73540f88d32b13bce16b03913a295ee9efeafd4af469212784260c93c3a7c5b5;T 0x33d8fc6ff914ac7a5eda09687e93a629a6a2ff0dc3773b8471f7c0726bc463b35108fcb1a9e549c71eef6026cea75359ef7a0615d47f380351fa568fa21ab37;F 0x2bcba1e6e5ed07e4157a4fde69263a806af3fd1400a5766d01b8932e7edaa527;F 0xbe163b105eba5381241f93f8e8f5aee2c93338d614aa991f9e0ee671bee1c27;T 0x1942b1ae3bd66b325beb9387dfe3d756596d5b512e2de1ca3114b9f90db63de31c5acf908af8166398e5804ca9d6840de63e0b7c348493fc885576879433c0d;F 0xd94bd55d24fd4d7683a01cfac1895f1586d8b31a673192dca2e3daf9efda4df;F 0xe17765d6db3dcee4281569270395628e4e4ed21656c525c7a5bf03957134da5;T 0x538dcbf3c05da0b266e2c9bad8927b66f2d5df3a43d9b2a93b48c62b7dda0541a12d83ac0248e6866bbaff63e42827a7d8ae110ecce7df6608b131bc6f4d603;T 0x468b0418f10c611921da559fd918ed19ec425452e4721da8a96f75942e0a33eec349f4d1bd4c79c8be29b9a22a1eb7892f307b3fdfed9c3c2b74ba04657e6c1;T 0x3488f48858735b51aeabbd1ea909e966a3ba259525d288acdb9e75d386827f9b0e59d412ed82ad221ff28434b9623686a26b91293b50ea60b50e946921b785;F 0x15b03c8a39437bdaaa7c0d974000ed4c7eae8b3a97201694fe691f70561b7002;T 0xdf3fde991c695404101a014051d3c4b411be22daaee47d54c60556d0d09c679a553c22e964df2e117d9ffb8154402371d8334f33e62ec8c726e4861ba4b56;T 0xe203b6a27326d7527e3510fff433ca04077b4740ef4eabc2dc5fdf108ae55d0405fac9e90eac91a5641230f2c202816552f3cee7f80582bdee9f8ae469892;T 0x6cffba69c876af5b16454bcfc98461b30efa40b831fbb2c3ca4039a37980f1442a291f0a42485d9e0904e2309666d286988470354a1e88fbd490005cd3e18b7;F 0x13d6c93b2a7b3fa79cb85ca84e89734c08af236106fff7ee35189c3a279b726e;T 0x4e5fcf7c723d80b3025a3bf7eccd5001676fa4e3ae4b48ff112d3babc1ca2f4fe045a50cab36aaaabb65eb19e5c2484503fd8dac31c3aeb7afe9d16eed1c154;F 0xaa2f6fed6e762c4453b670b03f7ae288c56205d25a94a8308cacac5149604a7;F 0x1e139b832901c1273e47bb45046b8628d8bf35983ce19ef70217ce04497f41f;T 0x6d7fd739917f58ed0266f6abe32e93dcdffd7f924331c8b782fe125f76397236a7d2a1339275721822c8d583960e5e6d96a09d1d98ced3c42ea31cf270f1ce;F 0x13049af8edf4ef9d884365e230a3c831afa81f6c8a31ee981cdbdb0c2b312a4c;T 0xfde99160c65438e785ece6f0c88848a734694b7c51301c65b431b58ad5257d3b72a6e90de9a5cc76824a9b8102a0c6ad88ad38c74a394ede106263240240d6;F 0x1545a3b0d7e6267faae2119c5600462d05646fb0a004086e41882caedeb0cb9;T 0x1943bcde21c93e1ddf5a8259ed5ee33733ab07bcdcce3db5beae0e8ed493989b4ee2c2d2c9b50acd0abd3181adece41ee9c3b6be8caaf4be20cecb7b9eab;T 0x52936ffb0f96eca968f0ef6edf43ff22e9e580028dac323185b1422b6b28980604c2e0d8466d25bf89ce4e55c241a4bb53f27ff1b2e0dc0726d84a022fab40e;F 0x1bb823e05648ffb72ea7b8b668c0be33023cd10673c2fade6bfadbb35f25bf18;F 0x303d8104ec15c8ed1f0665e5f70949f012d7bb247240313904f32e2b1b4eefd4;T 0x26f45571296cd752d58156e11bb0ce418f0ad7ddff2f52f09312051f49d9b267ff4ede5cf98933098003b08256b10200192ce4dad7dd88e32f1428223f96450;F 0xa772b20a66af62e351848d560fdd398b3f1f0d510041d74d71c749669f57224;F 0x5f24023c84aeafe08b8552395fcc63c0765f155910cdbf94d03a9746384a3;F 0x106ea5d74d973a1f658103ab5a09b887682a4d0dc9c88cfd54abbc869205b09;T 0x24a50d503386f404ee9affaefd0b0e8cf09b155c2db08b2bb60261b5e0bddc3476c314244df05585a6cd288cf2c21bce38764efcb406f35ddaa7a5bbc5409b2;T 0x3cbe71e9a616f92581720157ab149e851673de52d8dff251886968c37e5d34f166f9e22d86933a17964d1e1e7559a7b5a7a79693a841cc893f06e3151215d1;T 0x44ff9a1a7131f60cc34978ec4c140e0e90b1b35568bd2013bf7473a15e426fafca75dda08a8af797fb8ce4fc6d5d537721408c93da7fb117088d6824b5423bb;F 0x273c40b07dc7ce7b1ffae1c66b3eed8b6032cacc809d225f1a25ddc02b376f48;F 0x288fa292515d6d3f27bff0f27af3ba697371d52ecc8fb2cdda5ef084a0bb4b07;F 0x2a1ae1ee7f60bd9d5184177b48e48642a75d4d39a84eccdcf49cfa6f11c05b13;F 0x37773e28d312e25255bd0dcdb989f7aabe563fdd37407962a09523c095aa7ec;T 0x6c7caa21c20f5032b9661c5ecb78b173ced7eb6f5f42ce5187317014e1a3c601d70cdc2f7b0363cd9155f06bcbd11d7fe00103d60a8b1f87feb62f9fc706e15;F 0x26ce67ec79827b329808031b0f9918ccde892057f316942fd6b290fb47cc590;T 0x4b8487f8c29d8b462ead532f343385433169a6e708fee476ac8cc7b3910507d358987be1cf24951a72548fd0eb25eab3cea3b36f83715a87dcedd32816fc71;T 0x4d17cc66251f6052d493de3317dfe9afd0fdc40255ade73ec51484562d6e43b7e04c636be56701cb3c98889aa623f07aa5a1e2cf26bcdf0d89eba61d736e4a6;T 0x8831f76f9199f10e091b0224ea7fdfd9113cd0a55cbda068c8b9afc8cb92705475e59a0a09c9845e3c38629f4713ce3dedc47196e0df8a88ff04b8c6fb03778;F 0x2608921fa45e8a1ac4969c96cbdc36b55082f87a91d4551d24a1dc02076eaef2;F 0x84ed0b4da72f50ad6d033acf90837c33818c329bef222599eb673cd7903d01;T 0x5d33b92086af8976eadbeb0a1e39281f4bb68d5aa117b552599b8dafee0f46b5dd4e11ed78b88332860a2e103b0ecc8b066f126329a5379f35981379b7a4e1f;T 0x8e94a755f08639b9e8c7a8850432b4412d4b1d7de58d4f42429da51dcd6af6b981fcf3d7fcccc6179b16062c0de45ca50bf6c1834ed93c76d8c0fa4e217adeb;F 0x319dcffab0357a38e19395ee349d21047367d0fe2cd746642825ed1fae095b0;T 0x50322534005d9bc5fce6285f6620206e817a6b821bf9ba886939a6ca945bc36556646c5482b3a602b0d8298a983824dd7ea254bd7cd151a8a05ab5feb437b2d;F 0x762585088c345a2bcc8192811bb3f31c6e3b9a9feb095376077c8459e545bb5;T 0x121b4d0db833a29a08aa58334e5e6fc700041f923763e0c7ed377c1ced58a387eca573c53b4ceb6f9c1610d438025cf3b0abcb7d4f20930795c23cae4c1431;T 0x3c97d63cdfa42c33e2af7bc9d47d8d061e756336f2aacaf6fa84f4fb4cebe83229b3507edceb56cac0fb7a039193a5c49f3ce173e3cb3b595d5b48f8574a5bf;T 0x946674d6b4eb3f2a603aafc198eae055140a3904745a03e7e75ebcb42b48c1b3f8709638742dfd8681e8d1d300b47c09b6bce4096be41e91df9a08110c4363;T 0xafb14a61c19c1584af033d35cdc38025027e02726f9f52285eecbc209c19cb7baef8f870c9562b5c2233580bb90d42d0570eb7beb8a4a70adb61eff537b47a;F 0x2c05cd8c9a3023761d07cc2e0a619e5e3df25d3c02d7149891121776aaf3957e;T 0x5d4a5d4dcdd2ea8a9bee14d91a4bccf5c629c106e4eff8adcd7c9f9038c3fbb9244e5cfa32fc69267d9416238c0976d532cb0e234a162b49949942560697f04;T 0x1df7f87e9332de92a1ef476d887d7fcb2e432d294989fdb2448526c85a16ce08cfdf7eb438a08f8fddd8a26957eabcc9948db07f5ac008250626c66a1944b6;F 0x6d5c47490ed811d26c7d7d81c33f5c0fddab2318b02834f333954733bbe6a9a;T 0x7ac3312738c5c1c6c3ecc2ed3708033c48a57ec786af5282be1052a6a5ac126ad41c7bcfdcde9e5216578ac4debefb6455170d2925279942414156517d3a79;F 0x95eda0c0252d74fa85a93770c99ddfb63d1d5c0a9fd5cdfbbc00f4e6cd19583;F 0x1cb547114139ad66259cb7587c13ae5dcf172f913e670c4bfb0889e8a010dd44;F 0x212d1c0e20ff3b15fe06bfe1525a8787e6a7efe288450392c103ffa692b0fa57;F 0x3cd26276d2bd0a34350ec8d5a2af696358f78226f703e0a6c01228b4a4c3b5c;T 0xc59e798182cd92801a6a47ace4f7921c9297b333cd321841ba41e67988f9b832f46d4d16e8f4715a8217f0c1f1d80abc1be45290f171fb4e7a9f39ae58c6fb;T 0x17ff1cafba45daaa636547d0c6bbd139d0333fb3ff0eda4bb6f206847551b6ed912d1888986e4ae11d9ab8f474f8a3da1c28d4e67371cb91edb1383b401b2e0;T 0x53c03f6569883c09fe956460f9e30b51f51e3301869fb45e2d228a05675a14712108a4a8b52a5fb3c4f5a3ec75107c987d263875e80aab647d71e744b1394de;F 0x639854d04fdce0a3ca22e8c60a71d623f3ccef6eb21a6678c24372c75e474a4;F 0x1bf8f2e03877cc001af4619392d8bdcfa6304182d4e175643f4c8618622eae71;F 0x81d002d4329194bd74406a81f166e27027eeb2d11b623a8362784bd390f5739;F 0xe3c4a04f6ab5ef18e65a71d5b7a77c2e195194160ae16f7dd0f5dd91fc54d80;T 0x9c5ad5c44bff2366b6571ce14b322c8510e375ab8d0f3006f4edf0207170f67ccb512becf7ffc4c28b48fd3cdb87f55184031030416d05b03919b7bac9f292;F 0x4558d535ab493d86f4508985b024210ea4340240c812bfe1360f69ef38772c2;F 0x63628fb1e5a295d3cd9c33d0a949f8cd83a8121112e6f1c0c50c180bc09d5a;F 0x9b6513aba954a32e1ead5d966fb6470a49e68703d7c11df628377c0c9295864;T 0x842fbcec48c209e0c96af81db2e94cce0e3d5836b70f5e5ced6742702da505ae0fcdbe4c0998cc8d2f3cf999cb275204d9a7faa9d67d0345d85dc93a7a618df;T 0x327d5bc1c19c536c34629dfb891ffed0e5716a4e75319cbd2561e4f32651a6817b5a59b2c5eacd68b32ae2cbb02655b0ee62a5af7c826839d5d7742da30ea4;F 0xb4a94f0f4f5cf172455794115790644fe564210589f0f258f636d44a02082c;T 0x22c550c76ce54906e72439b1e74314a515991de2b36c9708f9f700a957de58cb659e90154d6237fff6183bcf4d4b5388efd0ac5bae74a34ba308899c106f31c;F 0x7eb7f67b6145628d6b86fe735146681bb62530aa86353307cf34db6e73e5a91;F 0x52087b1b3881aa0aa9e1c12a76e700d1f6b68c1c43b45e2002716951035faec;T 0x3fa3d6043e3cdb6ac9f7cd5dc5f83ad14ecdc8d385d7fafe484f2713f1b24e001b6a14b1186362b23a58cdb886d225de50c9ce2a54fdc5ed8a5a6c222516b44;F 0x2a2994a22cd02831b6cc6d968bf5901d6f9aabdff10abdb7a04142a20b14bf2c;T 0x48c0cb636178b2128a562c38ba4d4f5bb3f9859f4cb22091b70122623f2a4fc6ff3263442b73146fca3d16a3c28711d465f8863ba6a5f8d6daa9b45d496700b;T 0x61122ee726979e76eb5cd8c8a137228230792a56244f7ca7a688654b551f52def8a39ee03226e1b6de257e2cd6f87100271e08be37f8af3dbc8da651a5259e3;F 0x8504c1683c71769d5927dddfd27d2b9bcaebbad91865e7acbdca3dfcf68295c;F 0x6a6778a8580477c3027a9ba30cd91f4d808b62597669ff248bd36841fc83b65;F 0x3fc903605aea57fa42a26cfa2da31e8a25fa68db0bed998eea6cd8f845844f;F 0x9213edc2d131ad8114541244779ac7ec87b439c0fbd17db1d6d0f1e77804ed5;F 0x8e3f1fec20454ab7de18c33d975e2a55703f188f12fe87e14e3617a3b3bba57;F 0xba3ebb33b7550026df1e784feafd5f116658adfb97dba24ea863db16535057;F 0x242b99f5204765da26bdef76145b4d96c07fffa4cd856d6330dc32825f25daf0;T 0x41dc7974832c925e028884d620c5e12ccf372e38ca02e433a486ce82f9fe29e64fc0f4a289c1b1e2e067d8d75f1bf981512a1b259f3d7d15689a646796cc547;F 0x251cc08984ab7e7879135e22d0c4d64c83b45a977572af24635b46183cd3b95f;T 0x155bd20e5d7e476f6b6c771bd39dc7e07f37cf1c66cc2efbd764b0cfc67e1c192ddf3f2a9e7aff9edb7d84bd86dccec3c89a3da486279533ebe7132c21d6;T 0x26e187713244ba365af03b32d6288062d96e3b70ccf8b80b9df0b999e5f13b69232b8dfe7f6ebe8b21a37b0ef20df4f9e8f6a1f4594f3f874037ffe1da60cdc;T 0x18ba13f252c9bb2bca6c8f62177873d14029ee258596fff84511912e1716dcf531eddeaec0e23bf5ad46ebaf247bbb3c74047d45be56ef16b4e6f9bad91df0;F 0x29281801a75e2d158b2ddab83a53e687c4cb703003efe35514c2a7899f65854c;T 0x5d97652f69f5924212f6921ab4125dd327f033cfb73582083007877c1f3f0f3c03d627a6d729acb857b87ca5ac6d7c3a1c0e11c2e4b994080dc848339a66079;F 0x1dadfac6dc94480c33718f30a746ecb726d9651be045ae6077de71745a8dc114;T 0xc83ccb28666a16d758c9203b782b1fa7f23007f653c3ab8787e97404931e0599151540f3a99452edc56765566b12016d345e60c18caeacc3e4a746b4cf82e;T 0x8d7081301646089ff32947acc4884f7309b7a4b7fe013978a0f6b09e4d7f5b5c4dd33508f83fab65ca6499b764c07958a1cb18ac0f4500771e43ba0afa65725;F 0x1d2b42f5bb6a34b6f985224e4163c9d55a62790250320c4600aeed208baa21ad;F 0x2ff083d1e3719d27f0e78581f89427092a005489919bb15173ccd6b0254e3260;T 0x128a1674de505b605b479176eaa5168258a60a415b6552e503b0a8b5ebbc50156ff3bde5f56ba84ecae6a02dd4d62063ca3d8433753487a42da1c48bfd21824;F 0x6f69a92f2c84f63c549c34871b278d71b187eac8b061f5075f504be5e55a5ab;F 0x7f9af21e1a02c8327bec274cae2ec79f2ed7121bd0f0dd939aa36289e59fd67;T 0x8231e55b69eab3e20beb1a2ad58b9592b097029fef24cee3f03e09f7f2a0cfd03af5e78f4551767cf73e7f85de493a340ac5a57cf4ce5df06d921a127c89e8;F 0xa5dcec8bddbe5b1e6fc82951ba7057fa13559d24dfafe645e3ba6b319c8a335;F 0x46ed6b41d371a09e71144ce67f414f6efa45fe7d3388c8ff6b6a5aec745e095;T 0x3928c8cb75c1d6f838e360cbe10b9c28557e4871e9eb96f95215808be1199800494aa8c260381ed6386bf2050f2cf1e3a17a76a144be7731a0a63226884f12b;F 0x2ec72ae119dfccca925299b7a23c3516dcfc01a0a21a541d64ab49fc6da509f4;F 0x9de088a5e669bded7d690ac08aed821fea541117871454b3ae23f395edf0d04;F 0x2cc6e98ea32f93c6b21b35640444188610d325b3a29de986c2db0a2c1e3559f;F 0x2b7151659b1bfcbeca9979955ecd3248b5fe3b117c1560cd1b88a4b406f4b2cf;F 0x1aae4c25948c6982508fcee99b15f54f46e5b1f01539d55345a3020fd7c7f691;T 0x75f5211465d9de6aef9150db00aa66d4427847eec6cb8990667f55fe750f825daa8579ecf938e2a9958620e159c5c484524455cd83f35492460f05d39793c44;F 0x73853a1dd4d7b443fc55bdc874a866ec6704e91d746acbe64df8cb898161dc0;T 0x1b76b56e9d8a3c5340bbda1971edb40f72737b1634f36a0e7c8a571946a0622af1313ac216ef681683dfdd89958fdd3408b47ab107c41d705ac2739b3681588;F 0x136f56ba310ee9c2f3a4425c49d2841bab8d5c6d9f2b7eae7da7b5f211446ac1;F 0xb2a760c46a8beee79bc0b1fbd6c86f0eae65ace6fa6373b581425ee5c5e824;T 0xfdd7aef81b517c2041e683afd51166bd33af5d478ac1b778ab03726dd9e1c03977b92c51ee77b1e75dc1bfd2b0c568480a6386af48e814119168e6270e785;T 0x5246010f88942f87bb18dd521c7a72b4ac08ca2edcd341e556a5c7b307be8f2df19c6eb18781822dd9f7ed0b9c0c7fe0b65c8b8cdb6247a21acd1f92ebf6d;F 0x254f476608f49bbf7a80e4ad239ed224693d44d7005ccef825b926956ba74a8d;T 0xfc7d06c1efa44ed7e8e2b76f41aa2a347aee985c7b324cefec66af9cfb92609ae7789704ceb0488981ab1e03b7d0f37aac491c1987af0a332fbfde177b079;F 0x67ac2e6f7dd2aef0be3e4ebbf627a80941f92f91f2ba9530632df1ab9d27e1f;T 0x4f7ef4037ca7d458eb0789dee939efab13e21b52dc0297e92b39ecf9d3c2e503e0aa98f4a1618cf1935781db0f4ff5bde266ec0fe201e1d33ae9d5f82b039d;F 0x1e6dcec20be6669992350c47bc14106502c991ebfc42c8578fef916171923f15;F 0xa83f4894bdc1c1912050069a5026fea3fa229d2bab73e40341479b26babda54;T 0x11e69624b38f8cc825425afdf00e0a59bd6cab59929682ab05dd40af7d21129ad0c318e48c7a3ee58a9e29fc24f178e4d1451aae520cbe179ecfeb10a961a06;T 0x855933dcf650482a039f9e15c7eaabb09e72cdb3ca25c94306821660c6ded7e8ca4fa6ee99feaf9c0efd24d8b11f9e26f10be161ee58afde39226b5ea292903;T 0xf3123b0aea9e90561a83fa035c5c049bfbb474657540fdd5036076c3771ddb08b35771dc9fb0808135e47fee4930cc79d35474e32f0f7a839f14e19550e50;F 0x5c6d7c24ab7001d40385d2a1d0a8f04158a2eb2ac02fe181caf4eea70080ed7;F 0x139b5867976eb48342a0cd3564b1b82a07b6aa0293f8470b1158d8ebf851712d;F 0xa30974bf47b1537c0211d3fa723da0b1e9e72241faf4e02cab0bd0c66ef332e;F 0x128ceb0c27c96454ee495674c67dded3;T 0x381b0cd5ae5202df73b59da9ccc614027dd16dbf6706b5e4777c4f2c786e2174c2e08a2d7950f7a7121cd2b5c86638a;F 0xa6f4436d661486fc60940a1afa6cd564].
Lemma cube_chain_ok :
  chain fq_mod (fq_mod - 3) 1 0 cube_chain = (21888242871839275220042445260109153167277707414472061641714758635765020556616, (fq_mod - 1) / 3).
Proof. vm_compute. reflexivity. Qed.

Lemma not_cube_gen p x e l v : prime p -> 3 < p -> chain p (p - 3) 1 0 l = (v, e) -> 3 * e = p - 1 -> v mod p <> 1 ->
  (x * x * x + 3) mod p <> 0.
Proof.
  intros Hp H3 El He Hv H. assert (Hx : ~ (p | x)).
  { intros [k ->]. replace (k * p * (k * p) * (k * p) + 3) with (3 + (k * (k * p) * (k * p)) * p) in H by ring.
    rewrite Z_mod_plus_full, Z.mod_small in H by lia. discriminate H. }
  pose proof (fermat p x Hp Hx) as E.
  destruct (chain_ok p (p - 3) l 1 0 ltac:(lia) ltac:(now rewrite Z.pow_0_r) _ _ El) as [He0 E'].
  assert (Hc : (p - 3) mod p = x ^ 3 mod p).
  { assert (Hd : (p | x ^ 3 - (p - 3))).
    { apply Z.mod_divide; [lia|]. replace (x ^ 3 - (p - 3)) with (x * x * x + 3 + (-1) * p) by ring.
      now rewrite Z_mod_plus_full. }
    destruct Hd as [k Hk]. replace (x ^ 3) with (p - 3 + k * p) by lia. now rewrite Z_mod_plus_full. }
  rewrite Zpow_facts.Zpower_mod, Hc, <- Zpow_facts.Zpower_mod, <- Z.pow_mul_r, He, E in E' by lia. contradiction.
Qed.
Lemma not_cube x : prime fq_mod -> (x * x * x + 3) mod fq_mod <> 0.
Proof.
  intro Hp. refine (not_cube_gen fq_mod x _ _ _ Hp eq_refl cube_chain_ok _ _); [vm_compute; reflexivity|vm_compute; discriminate].
Qed.

Section Curve.
  Variable W : PF.
  Hypothesis HW : pf_n W = fq_mod.
  Add Field WF : (f_th W).
  Local Open Scope fld_scope.

  Lemma two_neq0 : (1 + 1 : W) <> 0.
  Proof.
    rewrite <- ofZ_1, <- ofZ_add, <- ofZ_0. intro H. apply ofZ_eq in H. rewrite HW in H. discriminate H.
  Qed.
  Lemma no_ordinate_0 x y : on_curve (ofZ 3 : W) (Aff x y) -> y <> 0.
  Proof.
    cbn [on_curve]. intros H ->. pose proof (pf_prime W) as Hp. rewrite HW in Hp. apply (not_cube (toZ x) Hp).
    assert (E : ofZ (toZ x * toZ x * toZ x + 3) = (ofZ 0 : W)).
    { rewrite ofZ_add, !ofZ_mul, ofZ_toZ, <- H, ofZ_0. ring. }
    apply ofZ_eq in E. now rewrite HW in E.
  Qed.
End Curve.
