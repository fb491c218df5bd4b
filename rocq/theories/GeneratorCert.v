(** Certificate for the order of the generator (1, 2) of BN254 G1: the slope and the
    quotients of every step of a double-and-add computation of (r - 1) times the
    generator.  Checked in GeneratorOrder.v; models no code. *)
From Coq Require Import ZArith List.
Import ListNotations.
Local Open Scope Z_scope.
Definition order_chain : list (bool * Z * Z * Z * Z) :=
[(false, 0x244b3ad628e5381f4a3c3448e121024631a10fed0e5557e9ed186911225dbdf6, 0x3, 0x1b386c209eabea1777ad2736a8d8c1b4a538cbf1cac001ef71d24eccd9c64e79, (-0x244b3ad628e5381f4a3c3448e121024631a10fed0e5557e9ed186911225dbde));
 (true, 0x1d7829358c6b59547bbabadd17120cc967c00abe4b1758e322f990633ee9a75f, 0x1d7829358c6b59547bbabadd17120cc967c00abe4b1758e322f990633ee9a74, 0x11f2335a0baa65fd4b59192e05d81ec2db1420cc7fc7a75c5f251b35dfbf851b, (-0x2ac2b8ae7a750dd271e488d4c0313fd44ba5372446ebae6bbf1eb8182ba7dd8));
 (false, 0xe961a40abfecd3902bb1c8e3868f2f06a8e6111bb6072b6104efcafca7fa6a0, 0x16584f81c6a94ebf3e621b23debc3e22b0f1e6b56e419e6795212813ecd6cbc0, 0x46589fae0e4426bc7950c3c4b13c383b03f13d5df84879c5948375b5aa10d21, (-0xc43ceb900cf7d0b0721ebda651440759f7aec0a9d252d2de2613be1b846a6f));
 (false, 0xb98b758c06981308b79a1a019a4b04010da58f80b6f8222a5d89ee7855f6456, 0x5a5f2ea62651bcad88ffcb4837ccaa88e0b89ab3aa242b98a05c61d2aef44b, 0x2c76b3fccc30b234c472b65235fd5d399619de2d0ea835d1b113216107808d7, (-0x6adac64761d5f13d53c4b0e48fdb441753de98cc48113f5cd3bc2355fb53e6c));
 (false, 0xcff828bafb248c839cb800c24b8a47cc46daf2fd5c2f040278d01985527272c, (-0x4026c689ac6b4b9dfd5bad73f51fdbf952abe393aa7dc4c81411f93585b64c25), 0x37dc5a7195492c489bad8c96af8df1b085926e549c3c3fac990e1efadfcb4e4, (-0x1fc8df1e8820c30b72d3274a9bc710e0147c0063ab0d6559d87027f7db3cfc5));
 (false, 0x2256e093565e4984ded667fc6496031dfe0fe653a6ec989265265b1fa025fae6, (-0x60b456e57b9c8321a9dd442b91d38ba2402a68370830e94f32f8112f9c4585f8), 0x185e1a2fc52327e0b85a32070bfe4d7a9f2a70b7d3b1f18abb9059004caac7f6, 0xf71c307164f3fef4cc5b27bcf5af09789e68b2d5aac2e72ab82f39021a8a10c);
 (false, 0x251b3035663e7e72c895811a4c9a83698329e3065ade57e3b20c3cf2d1d28208, (-0x11c967ab374c2ea6eb17dbeff2a78dec3468636be7c1858f732a905d75af1844), 0x1c73d9dd2d56a33c3b27f9a3d7ac89a46bdb09b4451f69c24bb8a5e69f1bd697, (-0xdaaecbf2e82fff534d6809e1ab2505492ef0d79dabf989823f805c0b70d6718));
 (false, 0x1767741ab1f087c8b7880487423379ad3aa38e3758a05b97fe487ba9f6408325, (-0x58f19f37e194cbc11a0fe9883f1c09e6c1aedacf1bfd775343cf2271f0ff21e3), 0xb51b18b3c388ed9bd90b71d7eda2a10f78b0053c6cceb320d60e63791b5d28e, (-0x27bedc3e36870d17135a0430debe67c6e9f9f10b641992972b2b1940d1cea4a));
 (true, 0xd8970a1e71aaee536486d81b29eb34edd1e1de9f42f7878047a0c22e27f9f77, 0xcfc0667a1199bfc2f442c562a34010a655a511aaba0409218cbbd6b3cb24d6f, 0x3c9676e834200a07e200680265f234c84aae8ac3561d46057c3bbebb4c02f65, 0x4134c7688d28e6003d42788a60917ab6ddb86d694fd1445c43d648a449d593d);
 (false, 0x116a74e67ee4848e6f61cb713f5369411c844259efa635a641214f6e33b0fb89, (-0x34e64f9f019fde2800473bf8b70049377d40a0895a35c40c17023991bb29b40e), 0x644907d409f7db50ec5e7db13e3cf175397d422b93ee7aebe23f6b6f11e52c7, 0x369ee9b44cbfde54d41d413a6623779e3b896f10b0c32b1b468b447365ead7);
 (true, 0x731dd40d65955f07cdc0097d78e265f5874b4a3690cccadb4545bf193f8edbf, 0x4a5a14ad322df2590b7489fd8c7f401204642a4aaffd1241866e11912cf4a51, 0x111d813921eeb2f983e245b0fd1fb666405c9472a3c6c78ac08d113172c59aa, (-0x1ce2c140a719411b61fcfd1452ddbdbf43307bdbffeb0378d79cdcbda5636ca));
 (false, 0x18b5190dc47a8fc2388d2e7eb1be103087916a1bcd4bac52b9b99019d79be8b4, (-0x49ed3e7ad2a5c24926744b968080a7e83a122675f57ed70dd360bcdf2c9bbd34), 0xc9d67c49b79f878afdbcb7f44513a5433a9848f75346764e041ccc967996dde, (-0x1ac7c588c662b50cecb822c70ea14cae1e94c7e478e57da9c05470fc068ac48));
 (false, 0x2020edce0a784e6ac774151e3160c2382f646fc6c00d139446eece41741a97fe, (-0x5195229e5287e884e62ef18b247e04e46a1d46ce59ddf58f077226da52ae2784), 0x1554c03c771e2c9f368bdca353c884e64ce0630d2ea24bbd5d606df2fd19b8c8, 0x1122493cbb9d902229cfd06b5b93d24bb74480c5a8ce52eb6a7b86626e486196);
 (false, 0x1a48faebb3190a6f38f62b206455d444378f35fd1d1681a4b72fd171b3a6a3be, 0x5bec2525739d5ff920e4b33461b34af2ddfb4b66297d6955d4c8edcdd0a3258, 0xe46fe38bb413174b5f53e226f31d9a9d0f9014a81340e7018af8ed17e14a3c7, (-0xecaa8f45698802f0a1cdcfa1b74a0a85c62e77994b7e5b78d2c9a7a8e5cf016));
 (true, 0x19185428ef39f8fc71c632d8bf590612fc846ea28669a43c8998439282f440df, 0x18f1ca2cee9991306ce61791ff4297f7140ddbb23589378feff0fff14c20eaaa, 0xd03876075f8fb163f3d757a317e4e547f1c6ea4b3c8877f506f53829f20d274, 0x9e32fd94b1f1c90450f6bfabd24f98c5b80b3dedb045086104ba484a40411cc);
 (false, 0x16977aa83d87ad71978b57c89c3d6f10126be63485c6db94afb9eff33f49e493, (-0x2bdd4ee8e76875556ebb590f9dabc0bbc24c8cf0fc2b57aa9952dea5e4b2dec5), 0xa8c04344d3350ae95ceacf831d44e2c92865458bfc0e09b8d34ff9e5bde0e92, 0x386606089a237defe4ee5950799554b2f1b84c461f83160f50d322c50e23825);
 (false, 0x27451181e3f178a29d5f8e315b3e6720e921f458016ed9ee9bb7e66ad382e014, (-0xc442cdbfb61a2f9bd6c372b68ffbbc0514e0529cd7e5d478741e987e723697d), 0x1fde07daaa6a5f8a17e8efeebd65389947e4de23b36fd3f1cd51b95b19d26e7f, (-0x19692e359d9e5c95934ccf0717a574cbb59a956d9491037eead60d9c4fa17fc));
 (false, 0xbebc5e4a72832894dce797b023675d94ba4fb3a6a36dc63c5dfee849abad581, (-0xe2888fcc656f39be01a2a2d7dce3c89da6f116a2ef62122ff309a7e997328cb), 0x2efc874bb2edcccf798571c42234bde5cfade11c3e6d4cdf28c9062f48e07b7, (-0x1b3581f36b35397797a03ea45574d1220f92c8ac837b1becbb1b1bfb853e59f));
 (false, 0x2fc6abf9f34d37080e5e40038ad78f066575d4dbe9f9c72e48ae6e350bf51275, 0x840cba8866fb61057b5820f45405eadb18a092f14501598179c38b714e66c2, 0x2f2b0afe4b8e7cc7b2365218d80b6f1ed48f9f852d69f9fd4d308fd00cf87a15, 0x120ee56dc9132a1a8d0784ed3608949de6cc12815e7d82beda36772ee9a30ce7);
 (true, 0x2629f9ffea8f943cb4b4e71d3e7fcb2cd83d9efe6293ceebd8f3abfa603f17be, 0x981a52bd9ac1dff6f0d134a11e8523e20e0e8738cc311414505ce1743037cf2, 0x1e190b2d5aa836234123e1371e0c8d28b8a607f061f9639195325dc72e6589e2, (-0xf5d8eeaa2a100530e6dcfffb3514df82eb65d46dbdaeedc8d7854edb188979c));
 (false, 0x457284b49335a1a09419ee3fc70f2f477fff8854cf020b9e98045a2acb51779, (-0x3b04372cf94588a8df86c6e80e0cdb7c5fc53c33aa2d55cc22567a3223887ac5), 0x63aa099d6639954b1b83e5968951c864bc5400f99bb364b176f97cf3045ad3, 0x28225f2f1b132714696e5e2e6b2230b261b149b3b9f4436c6335ac3fadbb0f0);
 (false, 0x15a8c261ed8e0f26105550369668c3035610ab4f4031396b3a2038d0fb0605e8, 0x1269b4aec676820540d39bc53e22a7cbacd2f855ff2a4a6087cb3dfe506404bc, 0x9b1b94f5fcd19cbbc0c0aac5f41270864dd09ce034b0ad3b4e727498073cdcc, (-0xe18bcb7fc71bae958217793cfee01312b003a2e263aafceb03fcde449758b51));
 (false, 0x2fcabbe612d54c1febd318de5172e614e344ca7af1678e6949426b926bf26eb1, (-0x1970d6d5a86cbbf89929e0c1e22b25d0f07dc9f4229ace365ef8264df948923c), 0x2f3310b6d0cbeb93b7a7fd8254b65473632d4dd518047b81b8274ce32abc5eac, 0x197d9c42f30458e6e5610f709dd07896c1e40346ded4af3b997317eac990f367);
 (true, 0x3af2678d9e247c18442a5f6a1884cbea9aeb17f4d97650134a22d9d6428c347, 0xb465e6b488f4506758dbead1a190d2eff65f9d8d111d5e489c00d35b3c283e, 0x47cde0288c54f27d8f59f5429379e26cd780a62fec67ad084a90491727acb1, (-0x1e8969e32c29209f0c70339a9d2bf001c68c66850e32b7360691cf74d357a4f));
 (false, 0xd58e8d273d42440642e028fa299caf4b6b60f364538a9b92dc8aa9c396a0047, (-0x32d718ef419c19272dcfe4305e0da45a4b0757773b1afa0824c4007e28794ef8), 0x3ae715ba4fce18e6e1745406cc75f552989d65979cd27065c28fdb18139a127, (-0x235d51f219846c9a020c5b321cabe1aff20c05247c58facffa92386756d6e10));
 (true, 0x24441ec661ab06146a0601aeade5f7d92b6bb9d07e6037afeb99c257bfc1e4aa, 0x1fbac0ddf44d0ecc0f74082a5c36fba5aefb63415c0451884371465c6cba00d8, 0x1b2dc3145a0c831a21b0bfa3c86ab4f537b1b6de4071c71d75d13e59cd574c06, 0x1d85498fd00221e8905966f77fff64fbbd0d0bde036096d608225baa9368ff3b);
 (false, 0x1d2293028efff851bfb5c2ac7480450a7c47ee6b548843100b75690b5f17569e, 0x28752b627a8af5021901c931cce38f71292f6dfc6f5fb85fd04391cec53dda3f, 0x118a8d391ada7a5014032ceea95604873a4c286320b8876951ec2bc15ad38b6e, (-0x1609609e728b8f59a7da5c88b2ba4c636085d7fb658a4386ad9c33c2f7a2febc));
 (true, 0x20cc17eb43866c188f5233aeed0e307fa80887a87554dd1c97e07a2182b3d8d2, 0x1acddc207e705aa9d39b63c8ddc663c0467e439fb89174fa406c8a7282ad9151, 0x163a65b269c3fa29027769bd1e34bbd990dcf97532b60fe4e749789573b8abc7, 0x11b99e860159bb0a15525c385ae01ba542159eab3b0d1db3c6a2c9ab1f9623e6);
 (false, 0x2b6d2fa38bdae61a43e939fd275b5da1bd06f3823e74fed6562942fbd7cac6e2, (-0x400ebe7bc154de01bb472cfdf8f27fa4b0061bbdb55f45263fd34d46954c618), 0x26f87dac03b6ff9cb8c81b484336d9d5a6fb5f6793bb96d45cd72878502afc18, 0xa3b6faf9d995a2d2fa6cb5e123dd89bc0ab3d9e9f57cd69dbea3c3c65dfc0c5);
 (false, 0x26200d5429d515598024bfe610e7878a494e590700cdaa4f6bd465b60019a277, 0x12ada97f08c852b5715bfd5368f6e5e17372cf5e8a88db8b597709702cab3ff0, 0x1e0965d6641d6531712659dadef6ebc4909e549e4de7d319fa8e5e835988cd1d, (-0xf111b3c8cadebbcfa27d903b94ee5253fcbc70706bdce278b945bc493977bd6));
 (false, 0x1c910be39023ddd1d07af27da09ca8ea16a0405b4db5b39088c26eeb6603d62d, (-0x1a0798032c4f947c5a227bd766eba9b5f5360895b70756c46f67adb5dd45b194), 0x10dd06ce4a6a9eefeeed61c0d4756f44ad78c1fcfc7a99b8558ae1e3ee7228d7, 0x2cd40866cd039b1a80d9f875b2c89c8f894e38e9b24bbe0907616f2cf9c945c);
 (true, 0x2c8f443c9a6418ba8ee9a0c0e1003ad8d4f1c6e62079b4ffb2f7cd01286a589, 0xf1349cfac2d534487b20d5dd863053f738021cee9b0ca58d9ce82989082571, 0x2907ea7e77fcd41e3e252c7ceb2345fa4d441e625067c43901f8b1770ac391, 0x1cc130236572a6f88456d6e946d3478233f0dabac210351ec282ce30b8b58);
 (false, 0xc4662460028411b85bc48be77ceaec94ac833d4f7ce5a6f765bef5e2eb54704, 0x6e74908135d1aee4061d040a02fa44dbe326005e0bfecac62e31c529ea08fab, 0x31d16a72b5780aa3e0a1a95b9c8dcfb350b1c6e1eb88f819d57d5bef6a9390e, 0x2a4df19a5fcab7b96b61d5d20226c031f1b4ff6776d4d6a28b00409e02d8def);
 (true, 0x15ab8ca6917a81e779d3a5204115e7478fb0bf75d1e5c4fa30e2cbb4af4cf27f, 0x29be8984bec833506709227d3cf5d4edacfa471693a607571da0ad766533753, 0x9b438daf5749b28152d9a6c0e5fa2cb51f8db75d0b58a1981cb28f3e5efbdb6, (-0xf3996fc46fc88bd740357b00d14cb12fbacd4d012b306a25b1afd8c504d6575));
 (false, 0x1fb4312a9027361afaff60fd046a03df6ede6503558b3616dcb5e626f6386988, (-0x5fa1e70dfd0ec3410cdfcfeddb136b8c544ec023c2aff18a6b4b7f05a50331c4), 0x14c5519642bf7005950a097207f56ba33d97c98998aee62b5cd90fdb140b1b2a, 0x1205cdcd1368e556537807b1f32e0011aa18788414b2831604d6dcba44f858fd);
 (true, 0x4ce8d1a5e71424be1747557efd95fdb994b38b6f31f638ffb55b4fce00d71d3, 0x1392ef7e86911d13ae7eb0f5467b6bbdf611218de870d56c54a0e01bead2be5, 0x7a3b929a18f05c553f34d7adc19c5c339477bb40d9a7725becae6340d57472, (-0x155e6354a42a15ea9d992dad57af59587b84e5d45c5995df92820db9ed99900));
 (false, 0xae8014f6919e0274f0af2e3c37f022fb8f79c46508728d48adf96e03ea145b8, (-0x2606810fecd15d5c875ab276ce36206e5c2e959735f688661928091d6d016e50), 0x2753efb773d2719c696f438b64ed58a5dc2a913672ca0639d432e07c1ea7ecb, (-0xb5417b05dc1b410fc006bdfba8fd47926e3f95ff7ef4701c9d2cae8541f6aa));
 (false, 0x2f32de11a7f1beb19c3bd7a238726cef7e4b057511b48d9f6084b8148815312e, (-0x27690cf6d290746bd7c86a6ddf73f80591ba518882ec9309c34a63e18c0311a5), 0x2e08f58e41bf0dde485a0d730be02711640a79b86c86d28a02b9ebbe3b12c1fb, 0xdbd6d066044765670463f1287dc6ce089bd6fec9c7f52f457dc8756e55b8bf5);
 (false, 0x27c02623a8ffdba4116d8c720e3e90cd9a374b3bb259c2cb2a40742197743f6f, 0xc980649352fac65ddf63649ee74d252a3a928e3895c523a2c2ad19633971971, 0x20a70331a6676cfa3b5861101b00906ceb218e369549e616c6204f4581274d33, (-0x15ff3d99198d7e801e53459749da827d87e77b34e172c43ca4825e1ee4920551));
 (true, 0x194c2176e3f30ab41f6460694f1f8eca03b0bb9747a2fdea7c6dfd21e7996684, 0x15be786de4c5f26179294dfb40c32e3b114aba0cf0b4161556a04a250c4e73af, 0xd3978ecef45db50d77a246fd5403b1a01680aeef29ab411c04cc7ae235ba1b6, 0xa47a0198ffacc2b5b28b48624ac44c6979be986cc521c2c1b13d1b4f2923abd);
 (false, 0x14357e2bc3beb531edcad9c9f25bd2d1efa6e5ee8b5fe44132144cb8f9c7b444, (-0x19a664da9b924f4d2940756f1b365a0e3e3f05fb26603b22471998783aafedfd), 0x87081e810b737bc772a09bf81e352723a3119980279a694e1a652428128927f, (-0x4916d2902be09160ba19ab493fc192b8260a3b2515ead7f4b4f6b8ff6063f1));
 (false, 0x2ea3308826defe77016240fbdcb96728a201e6e0ddc1d256939c6df3721a05fb, (-0x6ceb8ba9421dd04ef0d204d2906d72ae801d457e886fe6b9633e1acad967947), 0x2cf25acc338297c08cde36a98a740818b3f595168a1fcf98676e0d93381b1eab, (-0xa14459fe5d632e864a3cc1437cf3481e451979238ec5cd389af6e0420bba67c));
 (true, 0x122da1676330aa5ff6bd0153d912dc244474585db9610289377cd8c58edabef, 0xc6c67689ccdf0f14a34ba4f6ae70009f4cfa438f93096d874665dee83e3e65, 0x6d41f5946385fed55557ba6f81e088a6f7580c8bb7121a077b34305e8328b, (-0x2ebe194b8b65eb35031ef048ede7873f9e16b1601453bd7fa3393dc34114c8));
 (false, 0x230e04bffa386851c1fafa06babc8bbb4234a0c29560cba942414141ad863dfa, (-0x614b708c66e278a5f5952c6881ad688ad7c9d71d3e70224129cf713798dff749), 0x1964ba5614dd91996c7330e32dc4020ff9bdbf352ba9f32d0c82427fa4f42e22, 0x176a0b844deb793d540a0f81c99b47f650207f83ae577494006107e02ad937ff);
 (true, 0x22ef621bf0f9c2d226bae1bdcc8c218a63a249b2c00bf9179303d2a28caf914d, 0x627d383b81f475d6527dd462eb39bdb243fbc1b10f8c6ded205127447e9b8b7, 0x19386b66e841a7a6945e61d6d23d6abee597f77a72c8e99f5573f5c4e44be67c, (-0x12b4cda045246999f0d7fd4b5734fd7735d2a82433124ff47eb1ea4b746f12ce));
 (false, 0x1878fcc85c1dce91658be516a7432b0270bc1f0a136921644da7d3f8510170c5, (-0x34b8ef0557ad36bf19953e713066f91fd034095d48ad324ead5676d43a29a66c), 0xc6050dae44091e6d000258e11975345ec786cc6ce37c95b5d3a1124a15db8ac, (-0x5595de68865e8d906949d7426c7696fb6887b8f618cd488c702df148b7b5584));
 (true, 0x2a8a52af043646d6a23ad106e7d79330e60efdca49a8e79faf2ebe7d18342a1, 0x2792882e82d320e85cf0b9a6b142f0815482eae02d34916ae5766d5f16b5807, 0x25657972d9bca74f15357e5f2468086ebcea3b8b7c3c924922bc2c6ab5f8dd, 0x1e67313e260b95f314d1d864df511edb6b8c6b7896697bf2bf8ed10a79c414b);
 (false, 0x17bb8c9e8957d37f901ef4e021c2d48c25514468863656d7bc971e63af5916d7, 0x1e0ce57bfcb21e18956ce6fc36c696125b561e5e375dcc399ac4b71228e73a86, 0xba39bb1c8479b3fa3a45791873465c0d2233da8562038607b36a285ccdf5eda, 0xd951ca049a87ad583ca809d1b6c247f3f62259b635183d50b20c92e50a4cb7);
 (false, 0x1dda5675ccc27bf681af2669823a2e82836679361947ae1669b1dc004e7a6e07, 0x27e3859529f977966ac075c28b6942c87bf2d20bf001bfba22a080469c6c1b01, 0x126a8d8adbbeb2a52e3dd477d1d84bbc38bd8024f26ef4782c9696ffbace573b, (-0xfb36c38aa10dcde290774eeca7d4ead986b4c4b607acf8cafc59a93b75e592f));
 (false, 0x1442c245686c8b476cc84a5337dee66479a11777716e64f1963f27564cd51172, (-0x40caf1604c7401f91c0375844dbe48e05d52e1b2a099d7d587f512208d4882a8), 0x87b9a0a6acc4d3911053eb544a01d2b5dafbb6a27422152b44a29a4b8a51a0a, (-0x2d3231614fe7020d2669497b414c9caa59c43ed9196e0297a7d1cd241ca11b2));
 (false, 0x150b05bc01631d37449a18ac375dcca7f6be692491ff0a5a18fd0c4c5861bb2d, (-0x634f838d960edadc2fdb679a17e6a540a80073c1edbeb9640ad72902556e289e), 0x92688514abfbe2219ff93f9c2c2788137f99ec72e2fc0567437de5d1a135234, 0x3dbb047ca994ad2127738085bdd5e62df32565dcc89cc72a12426c2c4a34937);
 (false, 0x26e99335e96fe973cad007b35e14e37b3685b24860f0336d8919996c73a98d2d, (-0x14f8b7ff432b003755ad905f64800601f08cfc61d8c96cd10274e17a6af02693), 0x1f4a369c5ee97f93e427dded282b8a1aa8b659aacc7a2dec80e933db3f249be0, (-0xb891f7bf07840b502ab53394ba8df42f2f70dfc4bd1ec6722577d5461e4628c));
 (true, 0x6dc90c5a5be3eeb145e8f7c4101d2954e9e25b9cd6c4b3cb7805f660ac2c0de, 0x6933686818e0f140575b7f4b1dedb1762fb5d608e36377f67f172872b5744fd, 0xf9113c8e3fbc8f9a915debaaf3e43297c793110259de40d391244fad184eda, 0x33f8b169b6870b7675decff12f2fe412e86cafb97f7357d6ca78c5202c4cd99);
 (false, 0x1ee719cbfebcd3259f5a49d3c5099858aad98edf372816c163affc6054973019, (-0x16759d532a723b22580da6d8d065cde8534dc6cac20c9fcc29dda5776f0e2afc), 0x13bbfbafa07b5e92b07f9655844c65ce0e96b83b8af9b9945d7c4504ce634e30, 0xbe13cce9b752964369e510d1816e47f4462d8db98e8d8ce17c51a5e2746641);
 (false, 0x6c143c5e6a1e24183de98f17fb81e13d8975f2befd0997ec872adef94fefac7, (-0x19320cd56275204b7c090df2d331811bd9475b0b07c4de119a33748626bd8aa1), 0xf162aacaefacb48cbc7bce376f75e5d1e1c1e25be2571238fa45ffce8aff66, 0x2ce343023ca5b3759288d4f5c5fe764115f6a2771dd523be9bea97982cf47ca);
 (false, 0x2cd6fc5fae79a080466a68cd70d2801526fb36037be545693e0f552b540af3a2, 0x2d6846d1350bf2fc3e9f95d22bd2ed3c2f09fbb57f5bbc7875990994d118e723, 0x298c6926ecec68a3065832675d3c84a4e48b19adede641e0dd69788cb1eb75d7, (-0xb1aa117cfa4ef866e50d3bf673c12e6834cc473d162f052d3bdc96ce8b82711));
 (true, 0x1c017a5d7c485bfb268f19d73d42aae5c8d6c621fc19b792dffd79ca4e702eb3, 0x835a3dd76102402eda5644c954e20efcbd27198a16f68377a9549428d9600f9, 0x1035302c778d0c3fdde3e684b7e6d104670a43d5018e81a412a984683aa649e9, (-0xdec093b66b9b577753361a2d3fe2ebf84f682792a7f8403209d8451540381b4));
 (false, 0x242128315ae5396c35862786096b149a114e5460da5ad3daff439ce9e7fcc5d, (-0x571e2984d5e4ca26b0683b59c87eeb6d47efa311b8e4b36625d446e8055d8df8), 0x1af974bda0c1bf1bc371fa5848ee3b3658e4d26e628cbd589b241a91a2a19b, (-0x861046dc618aad94d86c6b85de660f97f809ae0b9c109b66a5033f2633c19));
 (true, 0x2e9bddbb1e401b18d7a607ddbc67d4b8d99858e329f95b3331cba4646c0a9472, 0x25821975a29049a32e8f02c6e8152515d7150ca01bff26866400266b631db0f7, 0x2ce43e3d52773a0b5cb9d815eee609b7fc333b76b874959adf5898809dace92a, 0x7f46adcb7dd5703954bdeb023cfeb0ea5fbede9ff4b57e65f15b66839464e8f);
 (false, 0x8df6f9e9074dc9b4821f9f4319deee252ff56908a024accf49963f4284d7ffa, (-0x2914e80fc809e71c6b7078535d7cbbc7fc5143a00de06e40c42343f40278733d), 0x1a079a2433e0bfad44347eb58f02f273bad0e75a8332e41a2a019eabf28e12e, (-0x2a01c300af1e7f20fece1a17b485b54618be4acbb100db1ac1c1c1bc8de3194));
 (false, 0x29bc6d3376b3e4f403abdcae00f7fb5abccd2ba8ff6d54c8014474987c2d4d5b, (-0x6bb8355f7a5d71ac0549ec98611427e5ccf84679226a6dfcbf0ff40039ed1aa0), 0x23fee5b2bbce7c5ecef16a877974030068df2e26ba7d6b3246275a46302fa48f, 0x21bcbd20cdeaceb0d8d0e65cf496d555289d3309336b6b07ea5b1ef20eda3b5c);
 (false, 0x25f52c3ba81ddc7e1fac3cf0eb318176cb77d2e944925f5c15db595f86cf6e46, 0x470849684b73465a7c47f0304e01ed3c990be5094484d7ae6cfdb1e893bab1b0, 0x1dc5fb5b0a42c76b774570fc8231bca87d7aabf99f357475163d7b97e4f69ddd, (-0x6d8dafe2749e88940d4a33d8676af99c5aac14aceeb77c70aa05120f87a961));
 (false, 0x2e423aa097f39fd8877f671315d0ac97e254efabb066aa6071ca2dfb19e98e72, 0x6d3d242cd59d7f02f3e88c1900586534b4e2de8b3ee731d09a043b3ac4e2dd7, 0x2c383903ffd82a643afd9ebba95e50c5f4e1d5751945e18c8982102c26c70e15, (-0x23bd1ce649a6342e3330e356051ff0db80a403d58ef89860aabd767816ad9282));
 (true, 0x29d98a5e988e09aa9280005d340631578ebc6737fef56ae5f71af717a26cb704, 0x25e4e4d96f11658a3c26f2282072be4fe89c21cf99415a352b619cd12f9ed14b, 0x24312f57bdcaed43bd4c3e574875f04131c2bbb087a381ba7804713bddb6512d, 0x187315be90d4b39b7efd95c9590f822f05eed71b5c47d7304a9ddd0019d33260);
 (false, 0x14cbb6033d9290562d6d8d42132cfd47fd08b2bcdc61542f67df5bd0bff18e2, (-0xc790e5ecb3928e0c8d82673c0ae6a6a5bb095c2e6c9f3a3d6d2d5ff146d0209), 0x8efcb60d3e9b743fade7bb7616b594526e0e4e703d0e002659ad773d49d77, (-0xdde2e23c7662ee4d0b5fd3797a77bafa5853c085fefbc53f77dc41f3c5dac1));
 (true, 0x24be04367ede3907f9d3cf1d18ebef6c56b78620f037268f9e24e4540192e3dc, 0x244e45611bb7af3e4fbbdad4c3a1a684e9fdf739072f2cc40e4bdf8318fd7b12, 0x1be5aa77fac9fd418ff32e817e2ee923dabf3d9536cad7ce8f1c77b348224dad, 0x23fb476d5ea4db9a3d03c81c0548e08ba6b607e026cf1ad88bef244c0a910672);
 (false, 0x1f5c252e0c6d29fb807b56464c2b3ff32510ab753ea7e769e049f6d8335e46e4, 0x32b9dac1eadb839d581ab07e58df2a3d87d5b3b02903d2538603acf4f010dc73, 0x145293aa51c885e77e6b8016f7b54212d7dc0ab17e79803345eb6a79841d4246, 0x14c353241a6d07b011c22db1f4a1bd485ee7473d44e47d067a85b076ddb91f);
 (false, 0x2904d764ad868a63c312128d5cfac63b2d449bb1e010bc4001ff8423cf2b778, 0x37f843f9e3d90ca5a721206bc5700bc511be21f2812853812e035d18f859150, 0x22c4f2a6e2e77aaf8b7325f0f6affce9b55f30145f79e766a1285131fcf87e, (-0x13a99611d7b6ce6d7f3f4ea646588d8c21c870b06ff3eef7535a521631d3a15));
 (true, 0x17b287e59f438bdc4b42cf5a2e8534fb9f9b5fad4db8d397775298d69139a11c, 0xb81d54a230526ff41460a5e204de2e6cbd8a1e7b58f8427e3383f62e49ef768, 0xb9ac4dc10072cdb128f7f56900383ab1521da319a902067dea7c166c1a65d74, (-0x338f5750a7bc8c2bc71b248107eb5ffb6524be2d5b5429c14ff626ad45047cf));
 (false, 0x1dbfb1889fcb8d70cf3aa88c606610534b771910aab8af44358f8136232b040d, (-0xee8466bed000b0ad88eaa504aaae0aa02acead5e28ad274225b45e675406e73), 0x1249bc901825f031b40f533c82b0195fa67f68f8d17c79ac4fd93b08b55b876f, 0x6db5ce7cbf1fa9e3a3acf9c56ddb62ecc63b697b434a41f64f9e736df32cae1);
 (false, 0x7d0e4de599e89a0bc21bc4d2bd7832bce267b1e16c133d72a651cf3d0618c88, (-0x148377f5fdd5685d631e95d3ff214f5be9fc849f9dffe61c94dd2a1752a7cec4), 0x1432c8266faf38de8a57d415c6f59e2304bbdbafd4886e1bce3be319d99dd6f, (-0x9e73e674a3dc339db87ae6004ec5d33028074c55ec7ad7dac4763b2e24e540));
 (false, 0x2cf5a01d89d359a2ae7b4beaef0192270182845d1d56c4427dcaaeedac96b77d, 0x21481f74158145a0bc452ba89ef2d636ee0fcf72895ecc3aa87267567d23a0f5, 0x29c5448cbde715d968c9310533c7cf3dc7bcf222d88b3aa2abf364992c320813, 0xa60a66264a651841c656f07711208546aed7728b3dbf69e9d2103c5394b3cb3);
 (false, 0x1be7c36735c142edeed61917515c5e4373acb9307826dc2f53106b72b98150f2, 0x3c7ba74b18c2c3f41c6befd81ce03520c0a6f5b224344534302474a928dfd88, 0x10177a5474ae0b96a0c8cd56be730cf9fef7887111a812af12f892bef5862761, (-0x1200d5c0f81eacb85a8a9e5fcde22a9e5be7a82fb6cc6b065fa321ed7e933b4f));
 (false, 0x2a930c420be9d7752987279c1f1505f995771c2c31e9eab166989a2c7a815572, (-0x5f6170aaf44bedf76ae2175d86d3a085f1ce9bb2c21071a68c4d45ff4a28c18d), 0x2574d201ae92b98157aac7ced2add174147b3c5ed5d8bda8565f847a35c51fa4, 0x2dfea975d1cdc411ffef76beb4eed708ad3163634baebe236a0356e6f132312);
 (false, 0x1237ec0a92764e29f1e2ad621601b8cbf79d5560527ead139762d2040107d2d8, (-0x3fb1d9b15cbc96bd96bd417c7a49321c8ee0e8bdfe5aa0edd4db03acc774a6d4), 0x6dbdcecc5845cf9e626d2b1cce4fbb8ccc0a68a1ec17e37c8daec8a6755de1d, 0x794675c00da169712cf8038152f76592d9777a044813a1974617bd6ac394339);
 (false, 0x15e26273249766945affbd32c2dd606877ea793e57a60d0a43ed85f8739bcca1, 0x9b423027b95b1806cb1b342edb78be47270993fd6a5129bd071c9c48d70a105, 0x9e59364ca5e79ba3dc3f849570785665565ad9fe9051b8094b2d9e659a8cbad, (-0xa2d4e38f3a454c4b5fb25b3831be59d0b1807d1246514cc57f74da7ead8af69));
 (false, 0x1571e7c652b64f803cd992ba6229230a3941a5fe9e4c4b929a7638806c22f791, (-0x4474391293ca2c574c63d29bbeca11827fab0ee88463042e1957580b53e1e112), 0x980dd1b0efecef500c170421f5101ea92a797d8dfcaba7e57beb917615f3477, 0xbab41a3ad2558cf72cd082b838c5dcabd8ceca112905e7868e815e2e0121678);
 (true, 0x2018fc262cd5298575d3796c36a34bcaf4f2b2b440e3f8ef55a865ea082fb1d9, 0xa555d533186080ce8f3a8b2c84c45e19fb352d37c303f93f6b6889ccd0a561a, 0x154a3524a261712e8624b96675c2424e9db41caa99f1c39606712e550c1e3590, 0x9d8fe45f07f5af088529cd8bf2668d02868b1fbd9ab2926fcd5c287d99214c1);
 (false, 0x1f9fa64eefcf029fb9e8694bec446ce594875e2f64f066da77ed299ee5c2495f, 0x18eeae6e5d534b4495fecac3109bba221d675cba7257882ab8628e62db58b41c, 0x14aa6fa1af9b46e9d6e750bdeb299843aa5b151fbac95609ef87a3349a7111a6, (-0x1b2e8266bae89c8669ecd0e7b3303c41f9bd6b5889b3f0bab639ae88206b88ad));
 (false, 0x1510801c397503143ba34d09a7a21362685724d9e5e9a5b658a87edfa0160d31, (-0x52b03417d062b44db7d57fde6880bb10e08326b446b473353645463f825b1ccd), 0x92b4c939939e7268c3c29eb7c5969e808c9dc6d0b8cf82ff64bdcc00ac6316a, 0x7df2a776e5a02e9f5ae80c5e6d3579026f695393f4118eed11a915992454c33);
 (true, 0x404c72b21c90840a957499653c28085d4f2776627ade19e07894002f80d0c51, 0x20364569ecad3f00a4c8438d1e8e2feba0f3667c60ed0b753b0843ab26550e3, 0x556f231d03fafcf28a0429a93201f34576e6e282ce236672bf105ec3e7269f, (-0x144f06fdfe4b364cd542aadc705cda4803af0aefac1e4dda157f50bdabb4994));
 (false, 0x17879a7b61a17c327d14a24949623da0393bc6202eb3a8e355e66a65d1478f71, (-0x53f38bbca7a14b66aa153ac7a67e929f21bbafbf2b430c6ce85e3b012af97500), 0xb70dff27353275f5159f40d6e833c52abcce3635881e22816d511ad7dab9a1c, 0x12ac109f6c34e28a16a04ca2bb4e936162c8887159db6a01e15594bc95a8abce);
 (false, 0x4ce96142a13a74d4549dc4a88a1a52d15bf441a4220156a05855f16b2981b74, 0x368b0d6d2b369c77886f41c8f33faa2436d3d272b622ec0ee29d077bb2012e3, 0x7a3d5b189ea08ab29d8f1419338d3501e1e6bf1d575ca3c945bf8d97d6221b, (-0x3aca6a8f4df651367c0c4bcbf00f48aa0af293f5f33825b1518b7a3e8169b0e));
 (false, 0x2d8aa5030be6913729bc2a6aaa3c603646309401d8d9f109dbeb8948ec639481, (-0x2868bcd85c46fbb6ac7cfa0a845011c22fa570f40fb76c453bd5b6cb2f914aa7), 0x2adbf5912389366d815b9dc33b2e94c867d26913e72f971c56255fd49943e34f, (-0xac1afe45d5f51ddf2eac8f627b123fdc01b366d8124502e3dd2396750cdb66));
 (true, 0x15efb1e5260a1579df2b950ccf79e5cfa80a02e23ca2ea7bc4625c671d25ed3a, 0x119a2a632f3658b36cc09353e296fc735bb28ce8f26e8dd9fb920ce5377cf7d8, 0x9f1a0f6d4e014591a7e6f2435729e74fab9af49ab44e7da6e327e4077485b31, 0xf5d791bebc21d31358753e1992ed9032d7e2608859a408abf23bc9d47700de2);
 (false, 0x1b49424c1e3f44afade93dee8aa12ac46dfc0b3809a878d7cb8d8099fa992b21, 0x2b6221c41eb009cda53bd9306f51698038191b83f641ebc7369d0eb58e491440, 0xf62b39ee39f658ab3cceddd2ae891f37cb6b1d726f7e7731b17c52840182c18, (-0x1c2ccfb36527627240c8c81e632e8fe50295c070f1425ed82ce6eef84ad0b24));
 (true, 0x290e01a5992e687a1d81911176ca72f991e8c7c3adce7c7c244a3d4cf0c757f8, 0x6d6177559465a080bdca32944f30746c73dc2e51ed51c606a556306152dc8f5, 0x22d47df377b43781542daff2a5f576ae6e00bb4a29b0f5bbc968cdb5dcf03c07, 0xdcc0ebc5b1733bd5d925e1f698098d3f44b192127dc29dfacf5bf0bf9bd51e);
 (false, 0x41fd67e6acb0ad75113dce319b19e92d68b30d2829dd20b00f5c509b917ced1, 0x400fb650dfc13513f1d9abdc48c5efdedad56c814d9018e1f165f4b0d550cd, 0x59fcd16d1373f84de457ad64b09391b7a38574f5c19257b7d1bd7b2f38c5e4, 0x18a75657c1f16295c5db8dac3cd76614f8ba26917debf8f3dd6f7661e40c62);
 (false, 0xb206a52b063aa38ce840e8e75e1b5536c37c01a24c8f038d710fc7c294fd91, (-0xe8f91d1bf0aad2e631d0b0bc99b7641d6f96c521c62eb9e9cd1bb2844aae9f), 0x28eee0106420acb4ab441138546a7a89065eba09d74422c368ac493e74ab4, 0x149523afdb6a467ff85b6061d1712de0bf7f72df8e36a134c22e3e5222a894);
 (true, 0x2238acabc51d290b68cf066704b049faa0e83f514e6796e5930289e896aaf9b1, 0x395b73ff9467c485c5ae9e5132762b348d6938ad0ce28ce5305123c06e5d7f, 0x18334fbfe31970cbddb51623f395d771b52835b8d220d5b093478918cd1653da, (-0x378d356ff15aba25f27c8c0d0cd00f95f7ccee80aad6bf1989c00a8fa05344e));
 (false, 0x1d50b7f61f62aaecf080474a170a18fc8f878bd5abb45fd350628a175d063b95, 0x1637a624dd74a6936d8d4b9aec951481b52521104623a5d455c80f93c59a629d, 0x11c24991ddd91869bbd42707b057f407e9e54ac4ee12be333d4f06d63f1cdc58, (-0xf0fcfa4c7bf6eb7ff8c2fad535bfa901413261eaa855331e47e1b235a54edbe));
 (true, 0xf043e86d7c2a00508c2ba11636c96430c4d9a51d3ea7c07f60dc4ad6f0e0e23, 0x9564e6102b222072bc4bad5fb4e7c46aa5993a6b4eabaa61154607df431731b, 0x4a8ea98a1ddbad7a9f2e2bed5dfd6ed75717b281362bec6841b37d2290c2c63, 0xebd4a7286b33f0829cb0e67f838122489ba28c31667003cbc1d0b24d6f958f);
 (false, 0xed1375ae600821d4acb9cc855931d7f067976d471e8b52c3abbe3f29537d838, (-0x24a30a44cd84ce287b4e9a6f5e331f26d193c3f59ddd6784f36fb51216951470), 0x4897513da38e84e0c0c2fe753aacf7434bfeffe3dbaa47605637dd33b5ada19, (-0x4521e93cea117542acd5e329f7e2be77e79389690ecca71965dd01a5211ea67));
 (true, 0x1a188709e5b05d2241ce5dbf23ade6d5eaeb058705ced2ff50160a10c6e51551, 0x163c1ec6c249072d8a9e2653dd51412fe3aa6a12c1b98ef5627c85cf0337ed7a, 0xe128bdabaf1e2a55d103f01f79d9c892ca6a89162d42fc22f3e694a89c66439, 0xde6481cc3282ae2844955e4c195f3824c3af7a63ad904df0ef12c98249290e);
 (false, 0xb610e00597c96c1079176489bb7378a5c49024685c120b102e1efb6bea36d25, (-0x5b68ab322574bf30dd3fd77ee2a318c120b557c18d111219822d4397580bb6ee), 0x2acfde2fc5128606079e23725e4eacc66d029709a2574f30d0b56c51aff0e60, 0x5127b1e86e69b4d2fb837f0ba6c55d578330ccaf7fe9208f4f1e9d7b57aedba);
 (false, 0x1e1ac59502c903441e65e9b29d57e7ef8cae98bf55e2b3725a377cd1b58b246a, 0x218b7cd1c421481f62a82596e8d577b565e165518e6c3411ccb8cb0d1d1e64e3, 0x12ba62fee1267b1e29129debc70704d4ad341c234641a14ed20f9278eb96b5cd, (-0x96bbd046dd35a5b7d83841537d3f3e945e6db5e59fedf00b0dad14ce136e592));
 (false, 0x1e4f85c08fb05978e54a2c6270592522f79527c3996b14a788a7b174dd063287, (-0x2b12e9a42573cbe46b871536e8664a10d832090c637f296dee3550e9a30e7365), 0x12fc3e666c8f615f48ec2656b28fd6f58965024aac78492bdd7368af7284334c, (-0x938955a9b32fa1ef23e069f04409373cda952f1f6f265a82949b8a6e6fa2126));
 (false, 0x979894e03205744b1603e68c1a98a80e4c94e2d008e0ff2d495d3681c41819, (-0x8e17e196f57f500a32e424ddd8b19bd7d3d06a291beded4e9583ef8419a65b79), 0x1dae6cf5b971374ba3b753c13d9c91617c52b075f38f292825518f3a66ca6, 0x819652548b5057bcdc1650cb67b4a1782b27c9fcc1ea185bc2debe6a4239bd);
 (false, 0x195c5802e045cb7aef280e15a2c84df17a71e166d93733ad8fe39d0f5bbe7d94, 0x2b1263fd86967b572bac5fb708e61950e2978ca654dd767dbb106ac3b897dd23, 0xd4a71d9b2f9e77cf186b79118f2df507cb9abf891bdc700a84b7a4e5bf7ba80, (-0x157115e8392121769813e1ab4096347caed7f56bb9790503d54ca74863bef2a6));
 (true, 0x1915e3020ad3da0547c24260c6190f5193dd2a8d1835e6a4ad8f779d3a8496ae, 0x189ab38e55c5586890bfeb773c2c10c8bbe8d9990fafda468d9f1dc9bc65c2c5, 0xd00ff1e0cc8a732f0c2761c0b781f432a16a7bb404cb0f2bb9a9948e2570229, 0x13bd2b398eab4b675d263e78904ff96f5142d71ea79e26af5522e8790b347e11);
 (false, 0x1f278a36a1a78529848782949af9aef8022a17ef838e20d96df589f656b640c1, 0x32771fa1648b62f7122106a7e046f83d567e8d5f30aab9880561ecb7bb9e3e84, 0x140e9e86b1da45fe26f116763e939028370d223dfac55df7cfd5bf36c5b81d55, (-0x59c7aa6577a274eb0f508088f30b44ddc66a98ec216b2bf8c4399429ab14513));
 (false, 0x2a6a13f925fd12d91e07f8a654852b677b2788feca31a4f3979e58b7b2c5d60c, (-0x6d008eb1c0669518eef8ba34c48f78f1486d21fe6c4f565e1d1200ec8d8824c), 0x252cddd1967756d6da3ac62f882b0cf7499a70c799336bcd0683f33b0fb82691, (-0x1a33844c204c9cad0966783ca7fc906d7709c2fa7b09ea410b4f5266b614bfff));
 (true, 0x4b258b07efba57d9e516f398d9caa5ea94169478fa74cc864101cb6976976eb, 0x4a87e9e2228cd79b91b61de0cbf676928940f918da64d8813cdade33c0ce3c2, 0x74b1947e2ab625a4a7b548ca706f823f9280adccd81a30f4192d102e1ce4dd, 0x17448582975e33563b26d7793e4dfc095a0140e1987a5285d863067a9d2014d);
 (false, 0x112b81a89b1c57c0e16c4c90057f8d5409d5a2a63160973e841b331e8bd799a3, (-0x2baea1c868dac840164b6924404bbcf9558646557148d6491a0c0f619bef5978), 0x61792df8fddeaf9abd2a633ab603dda25a473dbec300b5be299e56102584740, 0x33428812eb81d22e5c6238b88b67bec287b70c03b17d5c9c2a6f3fccbe42449);
 (false, 0x9c5c687f1f3889e11dc89016d0c8d0a5527c09d63b2fee40825e8d30f6dc141, (-0x199f727c1f0726b0dc7a30ec679caa002ae9c8eee8f887642159a0e5040238c9), 0x1f9399224910d200f2e5f90e075f73dc04e2e91768ef0b9175a0d49dc416293, (-0x49f497251f70ea82b7f5cf647b1c2ac462a824327beb43c8c6f6fd052d9cd94));
 (false, 0xc20952c118eb9187ccf1c8d33fa608ebef27f0a2334b99e0ab6c536289d2f64, (-0x7136d96c26d1ea9edafd6f135b3fa543b8a0d3a071e1d0749b81c6dd122538fc), 0x30a06d8e8b38337c3ea42d162d4fdccadf1bb8a8568317f276834861cb3f38e, 0xb183a9d394d3b327393778e2fa719ada6a225804bc3885ea1ee0f74d66419ec);
 (false, 0x29c370ecda430fbf5cb240ac975f5b6716f3523eccbd169ddf2d12df6eb22f2a, 0x4f62d104ff67b0116d9315911694760e0d0d9c7302463363973cfb3d39b74f10, 0x240b0032a09ba679e2203f186b5fc259856a992373dd45b8f62b3a4fcbaf248c, (-0x1387a547d90de61d8fe7bdc93c352dfdbccf3cf79a2ceff74459df9f528c610));
 (false, 0xcaadf0a15a58f18b77c537e6c98241a47c4d104d437c1bf39dabf2d43313c6c, 0xfcda237cf9159cb10ac2f7ecc8e89890e77e6e62fcace9942f9c89497175818, 0x350e1ddb2178b7c9535f8b502380349cf6660ea593461979e0ddbd5a4b1ecfd, (-0xb1fe8d847a2150105d9c3b1a10a76c7854ffcda9f1b247e0d38ca57e335a57a));
 (false, 0x19c1a075bc7593b7c8907a50e511976caaec45e8074f4cdb3f51ddb27012f384, (-0x7fafac026797b6aac50921f2386d4033a7cda6818c8bb0498856735ad753b075), 0xdb56e7e9a51c092aa3cf4edecfaea88e57843b8851a5c6e5a17820213de86a8, 0xb33791ce12f6da60684bd1be67c07426e3d2a0b3f7b01246d8c2cc38f4da684);
 (true, 0xd1c4ef7baaecceaa58721427001cfdd0086dace0daf045f46e91632887b2259, 0x6e64c0e5208cd8fd846ebe9a826b02a22442106b5ecc749fa5bda416eb1ff40, 0x38d4f44e21fe850e66a70e10985899b8a8f0001183f5488f4298167b85b5c3b, 0x530b3977f4a7e6c976eddc78a891813604266c38f06cc131b2301f994523d75);
 (false, 0x112f8842639ac7b70f58ea26773ac9996fccef0ac371e20d69891b6a2557669, (-0x2038ff1fa86dc2a70064f287674d2852f5b5865f3b6c20c30db0b04d7f65c4b), 0x61a6e8b8454c44f53efe3b411e2943162b6f2e9399788577bc762258875fe, (-0x23b0a12d27231de1a80d906c55f591712acdc73923a3acf7ef8795cd212401));
 (false, 0x223898e14545ad37ff32aea43ab66a0353126d0f1e2eaf9d1cea8b9bbcd78bad, (-0x4dbdd81661a5b670da11baf5b7f0132fcc429383b5279e34889c9b928baaadd), 0x183333c222fd878000b8597b4d74e8bb6904b213f9b2799808466368cd972cb0, (-0x137ac89c6bfddf7b392b2cd3c42407f3dba1d89234601b35cb434f143d9b35cf));
 (false, 0x9836d84d11be7c719a5e1e74c9e64c03901d04ce676567b978a0acafa57178d, (-0x5a3a4ed7503c3bde7b64bc097e877bcbf1fba774a94c1bd94b1262584ca537ab), 0x1dec8688e8cbf81ac14ce992d0a0a4a6d91879ddd7176380fbae77c399ff819, 0x52f48e9b0283a28e5772f175b11e51886ce9b0f4d43c27339eff0f026e954e5);
 (false, 0x2b9cb5e2e8af24419825950e9fcd82fe3d81391a267f354f12e49ec843e567c5, 0x18da90b4fb36dc18f55bd373059b9fca579e2aef635b1488b67f7173e8373e1e, 0x274df82b0bd39937e975730fff8ab45d389406b99366471c994fd5eeb9ff8dee, (-0x13560b7fe6becd053b91de1bb0f01a251926237d3561ad961fae94fa08804d24));
 (true, 0x1ed89ecedcc5f612330afa03e44fb778e738e9ede665950d279d97b135710a4e, 0x1672febcb5c082a2e5c5dd62ea4e280154e3f0fb7ba1c6cfdfc2dcfd24a8398a, 0x13a9817ef2bff1fc4962a70610d5dbf1d7b6fd13ae694847056953fe08f5dcb2, 0xd9a114e43c122669f3951b9af2ead0e4145891706d60ad6d95324321a6c415c);
 (false, 0x100f90727b83e58bef055543d46bd320011f44f2d18bc7f8e534dfa506df12af, (-0x2b1501375e6dade9bfb0ce6fd9bfd674bd8a9166e263fc443786f877e656be0), 0x554971204f9f45e5c6c541599867fdd07a5fdb3c5de88fa3e23e3abef142407, (-0xffdc7bd807fec145c64d952c223ac07e34fc2b60f15468f03f1ac56f86e44f));
 (false, 0xc5d4bf3f7020592cb28f1e1d9f1d0f6dcadb4c2ea7d30b5e0dd20f0cdeb65e9, (-0x55ef3fa58a83a03e553be23fb333c3b66dc96fa7330528c6bc821810b94d78a), 0x328c13f0d631e820d413e92e283ccd772d5244543ade891134140971fdce723, 0x13be11f49752bf07ce6f7ff9d4702e53dc0a26435fa9ac8583ea667b322977c);
 (true, 0x2c564adaf7ad7671c9fb08f523a86ddd1e4a104207e9ddd7194f939a1d5b681, 0xb0d2538c1f0c26c3aafba46c2ae7f43b93ceba44ea6f48c3ad0cf831b76a3a, 0x289f40dda6211329b465571a9bf7d240818135ba16c1cc75060be941c43511, 0x56158d21c1cdaa97277f73cd9ee61c9f7d4abde59f5af59b2c8c54597237f0);
 (false, 0x1c73951fd06342aededcca39389cb9b429ccf4af9e4234e15a6f77a650f17085, 0xac0e453faeb42b2d69d48bf739a3e5047250104b0f4552c52864e8ec1eb26a3, 0x10ba4f7a71a4cedbcffc72796a00b33279bcc755c61acb1be7a404f08dfe6d36, (-0x9a971969df649572229828709e9273a9964f363143c16a47a22d805329508e));
 (true, 0xb0f8716dae3087b8bcadc1a4daa361b6d48e83e54b0dbb9057e2573520f7b5e, 0x1a64627ea583000fff6abf01506b80681fc763695acffb91dc61d4bd1910238, 0x2872fd5ac5156f5b118af7ec6d46df89b49287b8c24104cf020266231c0077f, 0x983508f80312686c8009c5d4ea402addbaad1b6143acc80033c3f504fe21df);
 (false, 0x2c52102203997f74e21ebef4f9855ebbbbf3b059c77108b8043265086ec26628, 0x34cc32ae4e140e5c10d0599e0075d862faa2c5c371a05a115466663b0856c8f3, 0x2897813b967f0b523191fed97ab78a73b31227e39d95ca8fe657165ff07f983b, (-0xc4743abeb6bbaa74cdd93f49359b9f17fb54852a4fd2eebcf5dc21547e16c9e));
 (false, 0x2847b34ec409bb674c4f794642c7479de7c66ec8c03d3afa08db4c01e63dbbd3, 0x1c8be1b81f8d833c916426fd7b8d2845bcfbe1074f94a58a6493f738946ee46d, 0x2187302d625ab2e2b97bded77c05bb4ea0de70a7bda8529e9377537b0d4631d3, 0x590ef6a65ef37b8b84d63ee9b503782b244e0ab93c4ddfc96bc9e02d8d49555);
 (true, 0x11769578116dc06f0c8815fb3d0a31b5419da0f1140dbb0fb8dc7d81cbee1e23, 0x41722b9d00d66065351acd920838b309387a2ee79186226a15304c61e7620a0, 0x64d4e263d9fae904bd37049818e36c3578aa6786c17a7a72dc436cbf24ec360, 0x3384ee3a9a1a37f3e27a730755adf3ba09cb4eff54714dcf92d4bcd06d47616);
 (false, 0x27a7beb14015700bc15c7155d27576869920fb9092d636b17fe7efe1983adeee, 0x89664e5784cc2b72696a72234ae8f348d5e84ae134ce56fd672aa40beec1fe0, 0x207ef7cc379d8b3d8afdfe09c553c36df23c2ebde946efd803bf51a629b6db0f, (-0x3c7979ff300fb8ad3c302495efbc476eb6ad199cc4274b8889d7518621807ea));
 (true, 0x174ff468b3af799e067bf3c0bfad1a53b9ad031e71c155538271db67125c1ae4, 0x36248ba75bdd1e5d3ba33713d6a4db2e7148dc322495808f65d32b7d566b131, 0xb3b021e881e8c594e094058c766b175aa9dc83c6464345e6889386c4b060187, (-0xe38e83cd01e42cb4bc65397c1fb58fa682cd67b8ace075e97d3fc750791f932));
 (false, 0x2d7caa69d7a1116d8189a4730ae3df7c95e6b81669dc9b6f1a220d195c110444, (-0x1c87dbb45a40915f6cb64c9c43a41ed24057467d603d1185052fa799a84edd1d), 0x2ac1a9f62a97a17959b2db295dce04423d78dd1f3912fdf5f5402050a5ae0884, (-0x2a082431e8942532aabbb526aedbc9ffc27a7c522103aa837a29a481d1823e0));
 (false, 0x2d0030544527548c1417669681f6c2a3cb0fd45cd7462af3837a3f96ea78ef79, (-0x3d0da5162580b01b358642611a7dc30f592b335790f4d32fc7a89e7dde7ccb06), 0x29d8e7ac40d99de7cb040bf08faf82d90b960f9ce436123b483d02e7c3f455d4, 0xd5e4974885dba7b6ab2abbb1089d6b5f50984fac517ad2e562597cfc80fb6ec);
 (true, 0x1c4cd1c2441ce47c4f00dae4c1140fa78979fd3876250ca4b837359e60738631, 0xe99b7e90729b65eadce897a797dd617956af37d9ce21b638094f37b6c082a6e, 0x108cd9d6cd9eb904e8c7ebe0d77dafc110ed5a6a66e4b273c8229409ead4c93f, (-0x581b612cb673a4f89a63b88bd7915c011cb6a62f56798a249a31c9c458ddbf8));
 (false, 0xe45e87b05b2269ba9eb8f94db1c0d4a2435c52d7e78bc8dc6576ed6446055fa, (-0x3899d3d64e055ff1ba1bcfb3c88eb5f828de1596cec828b76e2f86c589152cb0), 0x435b6a5566c1b0907fb05b2db0aa76977521a52bb669764edb961924cd5c5d1, 0x8df4b1dbe3741b102f51894845db71e1224dc530b8108a7a225be3ebbe71202);
 (true, 0x2414874c99f43fe495655d9a6f8ff5becb05bd3831f93a4b8c77a897d81fe92c, 0x3350c3fe445ba98798fc6f95f30222e2d8bf04ac8c1c074be6d2655c6d1358f, 0x1ae69ca7a664c054ae146fd8f24c3e915959490e5cd57c3f8dc6c178e5e40ea7, (-0x9bee7c084ba5035f4a8a577e742aac7ce752c1b2d6824d62b1d134bd9ac35f3));
 (false, 0x13ccc983156e70e4a6008bf7de3062ed1c94e8fa00eb63ceab61d6bddf15f080, (-0xcc60beb0ff592dba0f0e5509dc73e9ceb84d645318ee740d8f7b2198d46626d), 0x819f09e6f22664d20d781feca464c9fa3e774216092dbd602d6b3b2d6e88d4f, 0x50148765c107a3dbe87dee445e8fc5e78ccc4b6fab6fba00aafb4ee0d4d3356);
 (false, 0xfd96d3981d2353a23fa9147cdd2d1034a067430135caf1bd6da7a12937ea35a, 0xbe7314dfb44d27f02d6ee9c6c22323c924be7d1323f2d1607acf8b69478892b, 0x530e423fccd198761b9e4364a2e2d18d5c8c4c76f83f83e921f128b93a79be1, (-0xd9ae72bc0696b716cf61dbfe46a171196bc828cd1f14e80d09d3b5acbe777ca));
 (true, 0x14458cab61a97566f2487aab4c163600916409984ef63e54c639a197f58de65b, 0x138dfb0accd484e7947a86615eb4f2733eab9929731b3a81dc885c6ee6e20488, 0x87df069af3a8bbf5690c9bfaea2ec92c06d125421ccb411fe6f97825140504c, 0xd63823a941ee5aa52d8a45b14c934685281d6ea16eb7a192d9b9caca8fdb9b0);
 (false, 0x15bc91ce76532356c9069b9d241ff98aabf7bbc273934733bccb91ecc95f500d, 0x1154d260d8908fbcbad81c97bc7f4efb1491b2f2cc846d1c2dff70b28774f65f, 0x9c37d2816bcec8a384ebc88249fa53ad41010b5a1ef5385da3d400b5f96e817, (-0xd69380b31b87b63399821bbf6ce59def293615644fc6af9da016f0644301ecc));
 (false, 0x22ddee6aa3d487d19122c25e9c02dd175bbd0ede00f2d0c809727c493a61e2a, (-0x79d404fa1403e9e8c747c5f578b9b29698e911e3ec3c356b9195098d23d37418), 0x191f3f0cdcf60991bbb6e1c9756383bee929c117b742c8def9b25033051a1f, 0x18bd6105d6f97f694e6dd0afdb05bdd2cab81716fc1c7e05ee8b618f9598721);
 (false, 0xd3ddaf67dc486c4f4bdf6f55dab14986d79ad6d20a4dc2e9870d75bb4957d37, 0x2aacb37c54be746f6fdb6aa8fbe37ca94324dc38799c8b045ebed94d0bb5dff, 0x39f93f06c31790236902caf12985707fd8301308ed34cf99b0ecc360e47e0bb, (-0x74f8824d40d9690331415fbf182ee700818012382891f72d8a8aebfad5d567c));
 (false, 0xbba0dfca1d05b6f7c9b10dc8031903c6cb0b0265a2f5553092d307c10bfe65f, (-0x3f5c94990ad862ab6f19b3b40cf9142c2b4bc8cad17e4a72e5d904e4f538c8a2), 0x2d77cacd45dd7b15d3b0cbf2d66aebbed8173cf263fd04a5cb1494350bf499e, 0x5bdb39b3c9d3e4e955022b8f841ffd69be1753c7866b7f37ccdd8ff5f6799b9);
 (false, 0x2abf7e3ebdf4d35285e41a6234121f962a8382259b28136a42d14f377d60e1ab, 0x13ef794796a94c75da8080fc052013b6ff2ab8a010114d3cd05c5db510bdbdc5, 0x25c32f31ebb259e2b34410e1e83e5f38e3ac9f73f374d3a3fe1b9fa9055fc2f2, (-0x1868638cae36633078e204ca6c78368f81a78f4776877b524a2cfbd5f2c98c1b));
 (false, 0x1e658818827a3ea7092f30d3ea6fcf00dd2c4709b3ebe6b02f80377e16760c0d, (-0x37e69091a73f14b1c7451c6c28e460ef9ddb9da06dcfed0d80c8a72a8a40cd41), 0x1317daa63c4250c8a78d4216a185f52ce8a9323862338b67dbaf2370cb20ceca, 0x1355e2f47fb5101e616a309aa78e66b288f97dcc8857b78ecb65345b74b83b6c);
 (false, 0x1c614d4f7b4945aad1d9a545bc48ef7b3dc682596e9d7dc3ad697b3bbf0acc94, 0x18f9ce597147459170b84be45b3f2e2f283a475c35e14e2ca3b5c4281044d67b, 0x10a4d77bb81906e2e7a79a4fcfd35ac01f29cbb5047cce328e3ebbe30e684aa6, (-0x4247689c3f8f129bfc25e62af4298d00e216c042cfaacf9e8d42dd9b27ba447));
 (true, 0xbe6c6096550c2002770abfb60911248c0d815e2db3165e5eb9c8ce9abb710a0, 0x439741839003936ce812961c420381677ed6e846c9ed867cd4a90140c3dc6bd, 0x2ed5267af92b110509a3d6236eda0eff05bfeec55d5810ba2426a65d6fd3bc1, (-0x4e845fa20ccb8fb9d3d7ae5379aef3d0bc902d7f95c83b94473ad32e0b993ca));
 (false, 0x22eba99cca7cb917e62dc8b24aab0c033bf39d54ce561484813baf32e7ecd1f4, (-0x4ca5ac9f02a80d397d9e6efc7dd8645902632a4cc51fc4425f37a6f08d78aca8), 0x19330c6ec0607cfdff9e02af22709c4efe8e3d304eafa44614ed3921b611a8d1, (-0x20489bc0620a0f3f610ba363dced05f707725dd02ea9eba383c14aabb14f9ac));
 (true, 0x995ca4bd7ce0a5fa6982efe7d8cff890089e2191d3e73fde9e94ed58e117221, 0x7e886291481602871a2ddb90d69a7a9fc6af384b27cf3d5d577326aa3ca0f67, 0x1e607a2c6f131ef99fae3b18e503cd36249e192448d00529623cf086d91e5c4, 0x60a247fae900b13fa860c87314093b889f694feb9fde37e5ac9f669ff7456cf);
 (false, 0x8e7975e05925b3ea9202938762244f3012e2660dd5040c8e0ab52444467be1a, 0xb6b74e7fc6555d133eaa831fe37f85cf93bf9c23e335a7ae820f04702e10b03, 0x1a378994e319b7cca0703e56a78f505cb185b101226df67d6f1e077581a0b26, (-0x6d2b3602c1515eb3a927782e3f9cb3e9cb02cf539f17ef18a901355c575a570));
 (false, 0x14c0d266abc2aaef0f845aae2a267c37b7d1d56a53a430a3316a13d20a60a4ca, (-0x7f77715506bef43c71392fd4634d43cd3c15d3cdd547b053f4425cc514aebcb8), 0x8e671f33332f5962854bf70e77e4591dab961fabe53f62ed7b1f234e7b9c720, 0xa23cc09801763b5417df236829241a7d4836645a043ebbbf0346f3a0ca6402a);
 (false, 0xfc6e0c32524153bafbf9bfc1cb554fbdf67ad99995aa1799720cd6c01ea7642, (-0xf429a2d11bfb20ff611ebfa57d1862209648454db6332ed1b71e73628fd8ff0), 0x524c4cf9dcf8138c7b44c48471ae7260307fed5e8e88678e6e4641ff6391847, (-0x449446fe8b50b37062596d20ddd41f60a7a7f13593e508e2b21a1ec1bfe3183));
 (false, 0x20cfba8b50667d6d9d76db6573641a436186c023da874cd0ec8a4fe2a91f6258, (-0x12fdf8bf9be92ad5f41111eca0b3153d31c5fdf90c2c133c6c73f4ec035b2d6d), 0x163f536b95f4d6246c07a212849faddaca246955193dc1653137d5639d23bce3, (-0x4b42ebe9b9e297f69c5bc3b79ac989e1ac23b58ae18cdcef95d5f46f58dd38e));
 (false, 0x6ebf8a821fe1b5bfe9f61b89a8d6a0dd0750ed492610a121d7c25dce77b1db3, (-0x6b07b6a9b7d679b29586f884db30f207e440334619c2f23fcecf34344ea9df3f), 0xfd7490c002dcf3d22a414d489f73b53ae3a363d15595724414220af858185a, 0x1acc25118acbca67e0464536cbfbab4cca456393454b87d28b51ce4df0722e4);
 (false, 0x1af1f4741583610e598125e8d5f1f36292d4c6078fb6b14d8b50c61d2ce2760, (-0x3c3f29ac89ba4b7b03fe7d33386dc38f148cb3fd9ea401fb7bd5db148453fcb5), 0xf00dccd5c30932d6881a4d8b6a07ae1e3d2bd7f55d1dba77ff23760016042, 0xf3abf655e9ea973cde9d46037a9dd372e2df59fcaa359981372dd2c3f1e72);
 (false, 0x1317abf2a5faaa4861d9cb31e302174f1564337023cefaa59691280200b73e5c, (-0x21ddaeacb80e444bc99de7731efe76b0df5f0bb6a33c94455bb96e3e844de198), 0x78860b38431fd4e1733906f1e45137db4d438636986829d3ea815c27af43270, 0x8c736eb74134283a425f3f91467983664a568b215f9a7ed3ffd540d3361a088);
 (true, 0x1c135104515b102c6a18c747b8197cc6a8c5b20ca560858f9cb6e31fd6e3cd56, 0x43a333201a4b776b6da034ee56ce964d788bd5a53195d605fa041adf4adc037, 0x1049dc7613006fe193afd5ee5bf24050b1acbd08b75fe4ee7c0fff2efa161911, 0x1fdbe45520ac17d9fad19455694cc4786ff701e1ed18bb4ca60edffcf45d004);
 (false, 0x1f6fc1ba4bfdf888b6c29e842e1c73d2e3886cf73b7ba72678ed81fb0d550b8c, 0x3409859dbb32816061553ff17b006216cb3b2d7e698c4d5cc06c38f8fb4631d8, 0x146c06aab4286db82de53bc9152018994849c43c18f8d2f67ae74dd0762a42f7, (-0x5a12a85115fa9a046f64af5279be9d876de4b04628f4ec0a75ce58ce93eb68b));
 (false, 0x14d2d3a786d52237147cdec7916fde871307b07f338bc1384e17d168c4c3f598, (-0x333bbca5065843a64abd6b2f9759e1c7de2845a5060a04e6d9c8175f4d5baf5), 0x8f5ea13d7b3a41fd5e23915dba8c86a6eed334719ae78371d02725d07a4be69, (-0x6ab8e750ece18277d0963ed47d8de2fffdac2866b4edca35f406589bc91dbbd));
 (true, 0x24264c952e5476ecbe22ddfeb7b01c20a40eca1a2a25c74c1dd170322893643a, 0x14eea17d0f09c05f89880be08f8cb318f327207fa377f94bfa647c2c02d08185, 0x1b0122ee415d6381fa13ef311839ad5ee4fe3676e8b0081e496157e1d11ecb95, 0x1068936de41032486be378f811da56fd7b56014d8e3797dff95ab602234d705);
 (false, 0x288d2a7f6a7792e708f861ac09a822b63dcfd6e21ddaf97849e9673d0df26350, 0xa924e9cfb13ae36469154ac3e56a86854d505430ee2c82a409f9f0aaf75bd73, 0x21fb3869c23b3376074573c07f4a43b31c7362b0071a197ae6994a81a0d18edd, (-0x883a579bacbbf5c4f4289869a4a8836f8b882e482f342f01ea992cd37ac03b0));
 (false, 0x1af4a4d2f3b19dd6fd8d198865fa15131d602fc5befea127daa13991488be26, (-0x50f3019490e3c069cb48ae21de719aec331acf97b9e16916236af27d2922a395), 0xf03db898bc0195783b7eb943bf660032210681875e0135216b51979ef276d, 0x1c71a7fec06ec9851fcf96e4fdf05a76c82772a8941c9faffa063684891e95);
 (true, 0x2dd3a3c8202a63bd021b57aedc3cd6e148121dd4092f9f589cc0c3bb92976194, 0x1fd5c83773adc500c5d1e2f424f09d6d10cd3195f30dd87d59d5681923bf8a71, 0x2b65c7f0dd38f06e4f2f936a667d68e41583b7ffa6e11e45df8866ea6a579ea2, (-0xc765d10c7b864864d2d9e2dbf4de22018b429acbef3040ea1f9919a681cf27e));
 (false, 0x945941d38cb95e27bd0363f450925f715d46c7ba124d06f609557e3906e67b3, (-0x82114ce842ecb93df38e7e882a7632c7ac4c947d5777835eaf79cda249e35716), 0x1c6c60d5ee72a1921fcc5ab270c98aa41857e5d3b8295756f229f78c3bce95e, 0x37354d0499a4359d299eb1e7f7d60d31b69f9aeadad97113ba41876547fc731);
 (true, 0x20aac072c205c3f1509dfd0983500bb163f7d6bc19d1f6523e0c79dc16103f14, 0x136b77c11b2b4ce54dcd2d5cccbf7d3f329f3146d3e97f9c3a83e85238f848ad, 0x160d4af3575f3e7b5f65f26cf06e188ce35918319043aaba42a984b3a327513b, (-0x8920314483f78cc03d432743818372f1ce5ce7e94d1ff1258978d2d1f977972));
 (false, 0x92d7a7ea13295ffb39f06f8918ec7b14549ac93a148d21d05c40b7b1d4677c0, (-0x6508b4f0c91ef153d33d4968510b8d5b591ccc7dd0eea5e8d7d2549bd0561e75), 0x1bd95e090a829476ac49d972cffcc0c23c8690e1d342497ce7565184c81aef5, 0x4bd19e76ff33d4d88d16b77e21a25a9356df17837f4924de39c7d0c976b3a4a);
 (false, 0x14bbd39e00706f30102c044a5319fd6610d47fd37fecd0a0e43adeae86de6aab, 0x52c986753a74076a91b22d18f4e7aa2934d6d3abf1b3dcee2ca5ef039f97239, 0x8e229a1fc7ad21eb8493fc25f84690213da3cc0849abcc89c09c941e723823f, (-0x6d8fbda4477f348e7bdccb1de8060dca605d6c86825e91772ab09c0130d74ef));
 (false, 0x2bd14b9a9bf6f826403a81474f6a3bebf2ab4d943f89f2302fde326986c7d903, (-0x7f9e16522d85bb4957fa9c76d61671fb1a025de52b8a5b5cf6ba842fa2b9352), 0x27acf982ab9a2d1313bb7603e44164f51eeb5313452e7e8c12a6486bf8449e69, 0x101a5fa037b17ee3a228ce9ccb95716a7f0a20f9f2857ec46881a82dba61b3d);
 (false, 0x757fb3998139684197442dd7a05ba45dd94fbb59b9c7587465390654dba4f16, (-0x3623d7eaef38d54c9a217bcdb3f9d519417074818d56abb8f821b86a7a1eab04), 0x11d4baf5795f836c6a7e34165e64f5da25167645c8895cb9936bab0ee433a78, 0x24935d5c3226d1ec5068396cda2e846b9f5f4d2910fea104ad0d49c310c2ad);
 (false, 0x1f78fd5712554ae5a637f617610cef7c6a03179e0aeef8757b461e583af95ce8, (-0x12c372bc4d9509878c4ef6edcbb351abc2868f3a447501194e4f868970cea110), 0x1478075a5ed3febca52af51c022778f14722e8f494ba93d951da7445546de916, (-0x1342a1699ac44639d6bb60e6ec1b67730cffafd677cf85bd7bcf7d2bca290ac));
 (true, 0x15509de83e0914997be76a3837d8df6479b5c1f2e114d416029660788fae54c7, 0xe3557683871b539a3e0cfc9363cf65c6068a582d8792ac7bd466ff95336fce2, 0x963730932e4502c924a8145aac1a554d8b73c7393f4bd225486b8af1a551473, (-0x5a637aba0eb3e84249f4c1a76c3a814d47636b8d2a56771ac31957fe38d2ab8));
 (false, 0x12fb40d06cdbd725464482ba649b93c8b55b27800647226122d0e4553b5836a3, (-0x7831578354ba46b4e7a872dcb02065daa910732517f187f8c5e2d5ce18cc86ed), 0x77204bd88a742623589ce536930855096f7a54f521c24922916a7be253b5281, 0x33ddff94ce1ca203e0c65c7888d322bfd150f968e63803292ec1b12a6db38a2);
 (false, 0x22b244d5130e6b5491234a39fcae46af52071e42830d99953d9584b8ce0df4ed, (-0x3b37cfe075f582621c475f81e62ace7db8e0716643e72c0854d28c258a560e6a), 0x18e07b43a04a9b05913573ba82c0b77236911df80f5472f26bfb1b1a1e4f6700, 0x12a148844c33758ad535d0febb78ae686d2a4fcd58a9d8488ea93b126b81d159);
 (true, 0x2f35e307e1deb915a28daf6619b94c8dd996034133d5eb887e4aa5e85c19345a, 0xa921844abf59290929b0ecafe288e0199502eccee180b757f87b1c9c6656279, 0x2e0ed98d64c53cdc04bb58b09b850ed4ee3f20bc62914932487a01ad2364c8ed, 0x247023c1c03a9cdc1d38be90ddb268a12c32f60936ab61afac6be8843e7a1f7);
 (false, 0x3a70a6550bd73d72d098175dd37630268c08cf597cf1ba0fc0b24c8fd71fa34, 0x21f8e36b70789d3702ff874e7d5a7a1c3c9848263edc44d79a954f0f01f74fb, 0x46931f29c26420c9960d8628b29d1d7be2c22e3a722fc0b7ff709aeb1d1b96, 0x37da940c85822808d14fb2383f3d842e287ff1e99f445d40fc006d73933d06);
 (true, 0x1aa2a499408a855475b7dc24fc0d558bf34774e1e4fa2ff90d217842f1bb6e37, 0x316807d059fe9acd6c1228bc466916ff944acbb245930c2f63ec26116ab2da7, 0xea90bf09b3499c32249b82379c771c7915f300bff6b693ec9a595b0c5d03b7e, (-0x12b965bc0d4a105e5c93f9ae432d27a40db305e39af88eefeebe08f086ee6842));
 (false, 0x212ff59a9040536918e5b5123bf7df74c64e55eecc4962f8e37e765321d438c7, (-0x2169845faf5787df9585298849d5c8ac6eca140362edd506ec4d921b9d0f88a0), 0x16c291bd77f48d798822748a002ce094c726b18c7f95f19def7a2bb86ad52374, 0xba14ff9ac851d5d934b3c2fc95a02c1c444c8f07ef1c0158dc1ed52d16dbb1b);
 (true, 0x1278f17f5f29a664cc875447e3392d438a9504c0913074ee1b1dd1c42062656c, 0x8a767c48bd6062bcac58f82d3a7ad2c98e2f467fd2cb032793e57e0628d6582, 0x70d2994353e8f3f0ece40b0a368be2a23e6004c411cb7c3c63d80d8825fdfab, 0x618d5e93292122f49bfd6923e8d4d9c8b36e7bc3592b876dc74c1134810919a);
 (false, 0xa42f8b891bcf0f0a7cefda6496263874bc631ff41948bf8f4ed00aea1013211, 0x9f409d3f61a14e4deee1ca0a4b7d6774764ab9b41900645277986b3c48ad8bf, 0x22d0e51aa763364ce93ab45ae5aa980111b03c892dc5c02fd6ffee0063ecec1, (-0x3dae093a4262c59fd70f72c8a2a998d6c01310e5c114f2b5551e683eb7d2f0c));
 (false, 0x11fac73b8a046fbf95944afe752dfdf1f7fdd7d7801f7a2ed2805799353c86af, (-0x1801e5e2facb6346f557ddbea5bc40a1609ac912a75ff961d5c5cd56ac10b952), 0x6ae204fd13aa9aa4f1e842c7d617580824e0fa9c44d3ff38d23aed75a24000c, (-0x164018f56779692b29ffcc3dc4a08e2b2c9b2ab15fada2313e0595cbaab0193));
 (true, 0x1d61d27be1fc147bf32382b655cb09415db9517676b31892027a43f83d7afe3d, 0x1160aac72ab924490f120f659cbafee7556e50936df18b072d463f47027ea115, 0x11d7088cbb42f8d29c369eabcf20af1bc58d74564151ff485f460b48293a4165, 0x14e8d51c2653f876ba878dd5f7cb13513ea909521ec0d8eb0e9e204567d3e1b);
 (false, 0x21ed326a3d7cbd4d723a45044799ba102db5b1aefe8c1e2a9f36b9235572d612, 0x89dd6a5adb4ae84325b9e43e12ac21d51d0d65799530a1149ea44aad5bd15dc, 0x17c9051f36eb72325ed16db5101492334fbb25c7e8b081551fa691ca2e656860, 0x244c40f0bcfb5d4b261c4d0aaa26ef08ae22f991961a3c66913185e8380a738);
 (false, 0x45db853818fdc70795c86b9cede38871dec14c3d1d55a9eb0aa79631032e862, (-0x1f4e676a08638e6a247a3cbc29ee18f12239dcc14b6b42453118d778e16e52cc), 0x64d84e29542fbf3347ad9356998586af5b4f5552f41016587ca3f56d5045a1, (-0x1687a09ceca5b1261c641e275a1a08da1b2e0d610152e2bf01ebef1fb1753aa));
 (false, 0x25a88106a601d5850b1a022cf599ef00137cac2233f8b3ae09d1284a3de58e3a, (-0x45708845bd7e9c6b515f7fb9381f929de465168b9b7f385fe368b008265d8241), 0x1d4e2e57b964fdb914916e1d224aed277f098842204d476b3619e34ef51c05fb, (-0xa89eced8fdb7d7285e98ee59710483b07a368b4bfb2bba04e3f96a2f71431));
 (true, 0x2a04062bcc045c64e3fd401f696fa7970b118930d33735a3c9a463f558adc04d, 0x21c489aecabeb6f0daee6ffc455d415e41d5f1501d0f83f79337543d25d846ac, 0x247acfa8d7c39c69497ed8d9e250992c25e884fcea9b217ab957e2bd1631a07a, 0x1ad9b0c4a6897f86f3190d0f79cff1cb1fc0cb99acb1caf68e3870f2c5bc1b5e);
 (false, 0x180b0ce25a74dc249e485a8bbebd9ee27be601b9dd1fee07e146812f10d37aa3, (-0x171b52b790e45e718d185d83deded44d271a329477c880aa85357ca0e485165), 0xbf218de76c1d6f0b04a07403cca0585a48a7e821c402569672e7dda8c5d4463, (-0x109e047f4f001a6c1436cf7ceec0b7d172d73e8c19c234e28ee2d2239532c60));
 (false, 0x2e6ff53d8f2e90e314c3be1af21c38f04a6b5c93e8f9cee21be90ead9691fd1f, 0x13f1c3aeebc11a5c514acaff6c6adc69771bd650e687bcbbe2ea995ba85b51e6, 0x2c8fd165da5b911c9794010f6ad11d4520a68449cd601cbb1946146bdc2ce7bd, (-0x227bc9ec7a3ad16cba5811e46acc91ffe2e06c71bb30a146d907facf43d7ad3));
 (true, 0x111d39268fc1b34f4e7defe60f707f98e67aecd13e327a58db7eb4ba9e43f564, 0x459e80e17e8288cc65d78f9c2f99ce0e8bf2a0ee004fba96214b2a8b483f2e2, 0x60d7459e3c703e61b6db71efbf89cef246cc0f02bd19f15ec6e3c2e9ed8c17b, 0x356b08148970f234f11523cd6732334a860e02d40891829fbc98081d7e35d05);
 (false, 0x19a5ab946a1f10e7618062141bd5c86e5bce73e872cca2d015633cf6f33bf3f3, 0x5d27c83c000ad94d44752b7fb6d927d640a0ce0d29622a60c3e8e2d3a9066a2, 0xd97bc341469bd4179dd2d1b135b9f1a85b8f001a9b3be7fa75e97886b0a02d2, (-0x10175ef351a2d6d4ddee8c13353275741117d303813e15443d8410708f8ac516));
 (false, 0x14ad2f1c612e62b9278758e38a860c9d42263cc7fe26d2bef045bef4aaf03d57, (-0x38008eed80de15008020cc819d7deb3e58d20bc8226cdea9fb7af799616d3c25), 0x8d5a1ef18605e33a510aa4a9595a402406946c0d9c7776bfc0a17f4522706c9, 0x5d91cd5f1d85fe0f418a01ffbe6457a3c9997fe377e2a9eac4577094d9f8b28);
 (false, 0x2788816394c4d74575a332d396e7cc4778249075226963b2d18b532000113e0c, 0x30d5801f0e7d68291cc553b00fb696332e6cc953bbf991d133ef66e21c2196f8, 0x204bd8fe6f25a5cb46673d74c3fdd8f19d15ac259e7159f1d878d76267ef050b, (-0x12f9a36ff02c2c5c3c7c5e107282d129f5ca957dcdcdf12d7ac88d0324343a10));
 (false, 0x302ad7d40982853cc80d039dc1c41e90210583fe530c34ed2eb629c5d6ac70a5, (-0x31135062a34c8d78343828be0a456da6b569885f6b6a24a8116b2b34617dd2f3), 0x2ff1a5717874f4583085eecd2aa93a26bf25406b04b4f525371bb9da8c72ceb5, (-0x4b17ef488fd801929a2d367ada7962b04baefcc9dfdcb9f714d7c253b54f05d));
 (false, 0x56e1236874abca11f14edfc8afe616271c227d6168e59c49dffd31c328b6063, (-0x84b5151ed157d76a2c420597bcf7d58a330433dbe0e959b5e34a9b83214c6792), 0x9bfa413e7530feccab844e9c419ddf23474a6385d1a95843c05854aadf57ed, 0x4bc8fd5e65680d057c87371f13e36c2fe578d12318712058f7d217f840e5c8f);
 (false, 0x2b1444187c93e610a12176acc197dddbc977066b64d918680b3f9be4ace0ecdc, 0x3db88bffb5cbd363f08083e675107c40a2b140432cc26dffee0a4adc705052bc, 0x2659895991d89b6470c2ac6c341e1cb2230fd84c2bb8a3c0c8b99c0b807661b5, (-0x35e38541d818e790b2c2651298853548e6b97931086a76d66ddfb85c3ce3f16));
 (true, 0x3e609e335c86daf80715586c7bf43799070f6ad3162c92e98f2c8c59b1eaac1, 0xbaab8ed960e9a2e194d7bf41e6ea229da79da895c857c70ecf8c10ba5ad8e2, 0x5067aa73861fcadb46cdf8c1da718580cd5c7b688fdb06436b43fbde07b93d, (-0x1cf60fac313acbe23cd12060b03d3cae36e4c8107e469950c63d568216b605c));
 (false, 0x35fe16c92af220c1d1324c5a92c7b8212980a7396a88a94a5a950cec10a8732, (-0x3acb9399b41593e9a45ae6d686cab80cc2ec5054a268da5ec0fd566096e510c4), 0x3c3dd01c94db6189139c9e363e9f683ac1227d71d6f8661e0ab8da6fffe97a, 0x18b1efc2b0288d4231f7e0076dd6cfe2597b7c55a08d9e3a793997f34f8e952);
 (true, 0x2dca3c2eb5b50ca3f51ed38b302675a88e1a0419af2a0dad73710fcc2873d37d, 0x8e17ebb10a33bf09cd60ab7281ecae8a44e91c3224b02502df0657592ee535e, 0x2b53f9cf26696a9fc9e0b37bbfee3f1e77658600b4ea7f426b8f225b8359e7f5, (-0x57a3562b8c56fbf59cfec069885efc08ef7676148d5a5896fcb1f823d1d48d1));
 (false, 0x5fe489e3d7fffba4a848d1daa8a10744ac891dd35152d6c15fd4619e5619b57, (-0x27f9a6212dbd61ff7e08c544378b04210e9e551313d6c4d4e0985da73c7b683), 0xbe0520b227ae72dd530d3e3fe953c55377efd0d943c834fa0cadb325045f8a, (-0x3b33ac100cfd8be1c908ff6a37e183d681ca97a7b0cd80f9b10d130ed688ea4));
 (false, 0x178dd10db238d3be05a57ca784a7e228234890e2fa835f7401aa2e4151b0c021, (-0x6f9e8656ba89b9b21023562103b9638c501f86055ebb7e7e41fd1892fe769cef), 0xb76eb8584a42d07ccd261f5b7e950d96c139c5c7b829a61ba0d1b22b5b50b91, 0xe7b32a965883b2687b1b309a38b409714c3d423c0b0af095ab36e18631b85ee);
 (false, 0xc3f593b3903a7abbf05ceecebf9637cdee1ed4d44ef773666530256bbba702d, (-0x72f8d95dd98b1dac9ea46f2d61d46f463cecf5d8f558135500e6b0e16f27354), 0x31985fb23191faabf7265477109c58cc7bf100bc603eb707b529c372e2a5ae2, 0x18de634bf8b735ca40e081a99889024798c8599d592286d1534f7eb5887f3c1);
 (true, 0x28774400bf419e1dd92889af0e7be5a68b1705ee9c9259c7e691a3a0229c12b3, 0x7a838acfcf6ba9bca7af0446c420b77b36aafd78c5bb32c4607f8605e017538, 0x21d68e0d396f3b2e967d28e2a6726f821fcd183d55ff969775048300f2cee665, (-0x2f3fb832c6745fd21160fb7978c0e0cb3c9f703bb285897b19c2bfc6673deb));
 (false, 0x11a2329f0d2b4e37116bf5165536c183bf9a29a71986162b6ac7fab813b4147b, 0x1262ea3252331d2297cf208a6c6cba31b79e0497d5a2e51d4c8e830818446a9c, 0x66cefd28873ba8356485cae8e2d009d10c5608709ac2ca9bdbfe49db780e9b9, (-0xd206540f2058a443c7381c01f0f07b2696badf4a28980830317bf7d3d0183df));
 (true, 0x910db00f3522afd168d2c5367c0f3d78d2f2b7ba84fcf82e3a4c1b14d1165a9, 0x88167d19b6ba847f7dfb82c69fca12bb28cb4722fdbb724fb9652f8b7c0023e, 0x1b2cb727967b57d74f3095e40c6045f0fe58027d0c0653991b2230920f4b7f5, 0x219cbc5f628e12929cf23e1c4bb60e110c09a61ebd43092e8b5364013c76a77);
 (false, 0x15bf5e58d0fac51debc1c94fbd4eefc586d6b79f8f3f9bcce6beced06cc29ce5, (-0x207e49147dba98ae2fc05b62d999ebdfdadba92373b9f4f2b73df098472c919f), 0x9c60107536b56e418871d7ff1d8e82d0facbd18a5f0676eb3751475aa13913c, (-0x3efbd6d62ac190efec654a76d04670ba960976a67c6f728c47892f03404f687));
 (true, 0x1d800147ff17701fb677b526566bb9197a8ee964e0657fa3d448ba8d03c03d95, 0x1a2e393f5d67af5bfda0e08770e1fc1c4f926def865665ac689c634be19004f8, 0x11fbc25a1d0f9e9e12f66341b7296fd483425c6dce2cdf3f069ba7a28acc3f52, (-0x883ef0a9a2c28f293eb536688c168a065ad7ebdbf4a299db2a18bbd8f8e1b6));
 (false, 0x101d71cf2e884fa04fada61df5dad314a445802117be317c8e3a82a42a08d53c, (-0x57e867ef9a102132a7ffbe73e749a4abc4fae1ebd7b047ffbed6090f9aa781bd), 0x55dd1b52baaa7060bd11e1706995d34bf23e834e5fda914053d5e7206b25f4f, 0xb2b98ba8a99ed44ac0be2233afa3fc15ebd07b4ccca8bc6bb42806eddbab56a);
 (true, 0x21ecdfa932f5d01149b7ba6190f5bebb2dbb8987d8c3992c87123b88dbbe214c, 0x73449814e980bdd29368e99a2588813385902ea4171c957362d4b0f1563cdda, 0x17c89116f08b29ae5d9c12b4113ca6754b79d0c5962a2d567b4f33f79a8d61d8, (-0x14f89f2ad7fc3f68b8215de4cf2db6d4b669001295e72dc3c8b3f2a83ca2f78d));
 (false, 0x176ee09abdcb8466f50ff813f4cd4ab58e6a2069fb5aab9dd6dba39fb3acd6e6, (-0x4431aff025a78ce0874fbb1381e9797c3dd2e0d846dcbe4b5fde124bd09156f8), 0xb58e0fd855558ca99dc021b5ff54280cf6f0cca4d0a872529f3d424af7589ef, 0x5c3d8c8778460f1ffd8de2876cd43ff6bb8a7bdf0556974b34532613eeb95fc);
 (true, 0x183c7f56180ec5c3d52bb39e070c77ab8642e678109b4f37b0a1e1437a6258bf, 0xe2a7cfa11ed0c508f54092af25b69620c98c311552952230948de6df6e7bb37, 0xc236def6e8aac940a2322137fb3e75b1a094f7d20c35882052f9448756d3aff, 0x6bec44e6c6c851a1a42b2cbb58b85c6fd79aebcc91324a9dc0493bf061d0fdc);
 (false, 0x357822816269a44c06c671073b2e8d170af17f9746675af2606a5059da83c39, (-0xa379b6fb9e0b84ec031f768bf7ca9e45908d84ab26b0c841947577a1e1836a4), 0x3b145898a59379d6434d26803bf9d336aec2fb6db97f6d1ac447b4310ee892, (-0x23eb04977c649df86e83ef47dce5d048a32687538e0704c05c89fa1b888b374));
 (false, 0x26a7c8e556132d0db44b1d47253a85c34ec6714ef7e5e82707fa6d7ca6e15240, (-0x8498d2cc38b02d9ffa6cc1a2a67b0d1b6c4521caf2d1077bf110d5835494f68d), 0x1ee0c1de9b6e94e86ad68a5bd799f3d58538aaebde55c69fc8022676321242ac, 0xa84d1b13e1f32afda8f775d87497e70763e9fb2153485fd4cbee01b61f4eb7a);
 (true, 0x22dfd592ca8d4423cbfe3ee9f8673c858b5b4fff2e1ec059745765d3f5b87563, 0x189d6c8752110d7138eec3f555f4cfd12adb8ace94f2a6c21ac90641dbd2abc2, 0x1921fd2161a685b20a54aeb8244b36434cdc4ad40ae848c8b421c6f3d38ca2a0, 0x1870f38cb4395030c75afe9b0aa3ecdfea79eb8f8e729424637c5cf7fb793734);
 (false, 0x2bc6ac7170b4450ef9c928dd5f36ff6ed6bbf210ceaa47e650d320e7b1598886, 0x177d1cddff26be0e8c231a346c9fa185212bba823efbc6fd6c8ea4652cf386b0, 0x2799bf949431587cbce4b827ddeff1fd872ae5bf8b2075241a0d119c83dca2cb, (-0x154cabfcf5728cfe87c5bb032bb971a5edcec2a992d74dcaca3af952cac449d1));
 (false, 0xa19a0d34088177bd5e39bed6cb88a7b4bfbdf75d6bba4e08145cbd6c4f4c594, (-0x1b37b485582e125f542716588002d73b3e49b2724214131b8708434a5d36838d), 0x21ba8f4ffe7897c4a6ac800658478d2d04c8d3231985731a6d9b2d23a4b2e47, 0x2b5a4ebcfa3d179e33761a4a67eea52cfbc5b54c8b766261f9a76204781b120);
 (false, 0x6069e8395bbe44247dfc6e78011ce1472d7a56f55d65b85032bfaec13ef46f6, 0x23cf0bd85cfa632c616e39093833885578e546a4cd689c6d5da7ce8a240adbb, 0xc017207239443151154e24e4474d67d75add60a5bceb4e58e757d8918f1f41, (-0x2bfeaeb01cc4bde88b1b9d05bf836406dbd3b6c92398399a807d4bb55c1394b));
 (false, 0x66718e4349d7ef4a6a343e43512a54934bbe39132b0a818c3a994b7b09407d7, (-0x3c4e6ee64d0d7d6f2c12050f93d45d4db5178aea3a5cd71bb280c8a73b0fbf03), 0xd8de775995e78954ee8e19011469fab823c919566f24b27b2d2e78e85e5aec, 0x147f0225f36945f202751d971a689bc82434cc4bb3beaaba2bdf1eb2b6ee7fa);
 (false, 0x45c8a3961e8f0e435228fa47122046c65da6b8c7d7560874bdff2587a22b637, (-0x1c1f40c73a320692651abbdc2dc0fb9892d45b35a0c8a625951262f398e7d283), 0x64a1d20cea58af03ed48465662cd5e89eae377607f2124d4d7bca354061ab8, (-0x3ede4a89aeebccf298b6407bf278396faaaa754e6e1b6b3691956c43ba17c9));
 (true, 0x144d7d1801d7fc37a87497db8fb4526f938a0627fd4e6ead3b673229c6359f2, 0xae0e4e31486370a23e6eb5f536a0a6f381fe700bd2544bbb5e7a3a1cb43e04, 0x88498825f9619bc43f600210d317191046808429606298d6e10354ed80c95, 0x4fed380b2b13c3a68f1030eb3a42d0e08cac12c37b95e75b6030b71b11ef64);
 (false, 0xf9311c2e70426da42826bd7224526a4ecfc996bae985879f5b3c279ebe8c2c0, 0x1a8bbaaca1869fe3a3f983e4916cbdf22710d6452dee9b3e5c30f56770931c3, 0x503342e0ce0ed4280698773d4b80a8110c7898c9d26f891332f7ce1c9acc2a4, 0x26001fec55e78910d668e1c9a1acd54c1e78d5c88ae5c18c381e33390b53840);
 (false, 0x303769dd8eab6c29ee2c76b0d2c79ce1c7153c414e5c8829b22ca4c934eccb0a, 0x13410c1f2214319db5098a59785c8f4d284b0530de9cd3f028bba9353fd42944, 0x300aaeeddc0060492a5677d1420ab1d4d7b3ce734b2ee7695ab69fe7f409c6b7, (-0x140d095b465104a7fd8e8aaeb53b06265001e2c2cc4fe5d8fcfd717ba961ad88));
 (false, 0x29b5a6479253145ec6fa71b38a658cee0584e22183245f0f78c78484497e41cf, 0x1cc73cb3cee910a8b09c391293128fc3a9c2364dcaa02c7f117928adf6318073, 0x23f3360b5bfbe951dac2cfb9d8482aee3030e626e2452b431a8b2f47ee70c7b7, 0x7f3c844806c8b2d61079bfb5d0b4a5ff4cc8bb5eac5deeaa4350ebb273aed3d);
 (true, 0x8ee39b97844871583f0c5328056206d28606439fe94b203dd62538b1d9739a1, 0x33caeaf31a16a48aab50c93f2368cbfecb6dd8687918fa59e2bcfd70d0baec1, 0x1a5ea8b01927c0c0a0ce661b1bb825baec14e164c4c546198bf37d8f4fab2e7, 0x26154b56263dd75398d1bda42f80db12aa9a61a54d84a5b7eab5dd67f207178);
 (false, 0xadc8e12601996e2c755bad097f6814f539072314d2ae99e4c9f90b4498f2035, 0x4815b767962615cd30c134f097722ba3e3c663ad19b1c68cc74d9740850bab9, 0x2701870b7739fe8096c331d52783a3db59b15969f2df19ac04fcd6cb37dd9f4, (-0x67134d4dcf3148048691d2ca4991a39f950360221c40af5dab415833118bbe7));
 (false, 0x167c6c75c9e42c5bb3aea341a5548b08ace9566752844c3ddd4e16ecef903540, (-0x191d8794a7557730ab6d646bb67ff74f0b04f92819c7f7a03bd70b89ae5d15ad), 0xa72d057ae745f9826fc48eb679fa3321d3cdd2911e44bbf8616f9ea16158b16, (-0x185fe6e438c75736ecea6c77162940f1bdeb376225f2a3cae37759be1db5aaa));
 (false, 0xf2ee9db8e046082458146ea32f66575233b4994d330045d4cb133925d6a6b71, (-0x52e4729d648c536cc8ce9dc177917aba7f63b521fb9bf9da9096540612759c88), 0x4c38b82186f2f450e6ceabbbb4d831d041405cabc73250b0b6b1b4d595ed1b9, (-0x2d40f8c73f1d1a73424831e58641dc4f260ba938a71416ca0dee8a2e72e3802));
 (false, 0x5a8f4d37d8eb541efcb77e6181e4f248249c6759702f2475885090c4564ba63, (-0x77c77546fd64c87e2057eaf47d1d54dd2d715581cdb26b6b427bc0887068cea4), 0xa978e732466d99107853515d2cb352e416ab8ba16d42aecf3243c7fd323b32, 0x47b6451d244113a6e7327e37f4ac045132d16042724dde9f1ce736c3d063eec);
 (false, 0x23fc3c8f08fbfe2080971ce9fe84fa723d7337c06754e2f670a8b1e250f92652, 0x360c8702993a4e47039695146daca30641f6c472711661129b89044fc8cbc817, 0x1ac26fa822fc08cd6f10aaca24d818b19425d3925490421de57bb08761f142fd, (-0x209d4f7eac702ed1f8aea12027dd8997c329636bad39d79bd6df3fada04c23f));
 (true, 0x12dd77a63c7e0b1d6a0b79a3b48b651af6e6a41c04ba32f31665efdf95d80732, 0x3ebe4323930e3a7b560b9bd608a56b6ee28f772a0db1fa8f90c40b4f92a7516, 0x75ab934bd92072342cabaf51a9dc813138ea46d8d0662676cb740fff30388aa, (-0xe5efb368785b06c8279c69f6373ccf469d8b28631ca9dada156fb68dfc2ddb));
 (false, 0xeca890d649c669cd8938fb69874024a9cd00792f89da49663347cd9ea199ed2, 0x842289ff744bf39cc1db41d9df09cb8918045b7b1d5bca52c5f25a4a05a83e0, 0x4855ea22a7a8f4a1b70355a618d73fc33fde8c2896ab0563e53f372d10b02ee, (-0x4113cbb6a3c89d8c7c2ca457c9f527d5c6a4ddfb8f27812afa499f433460342));
 (true, 0x11c1f0bcdedfd92030d1b7f0a2b600a4e50ba7dce78642e9a9c147dc2bf12e36, 0x96b743fe31319d7aa4fe008c8e0ec2f80297bdb35f3259d20bdceca2ebd20eb, 0x68426d3348f558c187098f77e03dccf1d4591b5a540f733b88f2693fd014094, 0x264120b8844b348fdeed902b8e12746e11cee577f4a70d0507adca322e5c7ec);
 (false, 0x18876ed3ad87048daacabdfc8f8a4af41e8b195e5e8afd483cbf9b9540459749, (-0x6b6ae24692a9d7caa653cd4991e764e3bec29e12a41804438674cd23cd64d83), 0xc6ef1803eaa326b6b75131a2ebe245d8f02f151c7201e0f2c2cf0b32caf0af4, (-0xd47bed87a505bd86983f9e4c759424d4ff929a7b347bb491f735cadb78ff908));
 (true, 0x854e7aa2e809ddbfa990eb79b5ae447f70330568ed559f2c321622325b8b61c, 0x7cf06b34f01c901749e7a38f1ce8562e6c950fb47016f6dc44cd1679c3e44f5, 0x16f395847e8595bcf1ea3c57d829c459646a4521975aa5bf64184094fd1cf65, 0x714807bd0750c37c928e50c594a3dae5845dd807e9f68e915fbf1f09aaa702a);
 (false, 0x12b20effa9ca62db37a3d48cc98e38921cffd178d5c8c4885562ead9b6e84ee3, 0x1668d1576add63353fd512a78fdc6bcad9344e0445acdfc079e5151e61d2eb99, 0x73907d0c33e2bbc9476a186011b86a59ec7a6265c8593ac06dbd65c608a00eb, (-0x7d1c03f7f6bba03b54c79eec8ccd1ec5848446291954a17d260146cf30936e1));
 (true, 0x1400a96dba905041cfdeab67a98ef3035b1fcfebcaea4205db70f56b6fb39, 0xa1d80eafedecd85a88eda009846d692e6f7b4129b160dba9af3cd3c04376, 0x8449b6c0a234aaf33d4ba3025d64053a6771aca955a4fbdb9e8d04364, 0x7cc180952a114071375dde11d879fc3db4d53b060f4b4ca8585a3ba4ed95);
 (false, 0x205c0bca38980b47a2436bc5da10c6178a88905d2765d1ac14ebbc595487c76, 0x200526a6b21729aea0864a4c114bfb4eb8bc6c353343e2b8160c18ab447bedc, 0x15a3882c476e92b4e940709d6c51782d685f4dafdc8c458c8e8e8bdcbd2918, 0x2824beba7d7a72624f0220f45b848160fda64f2924e66c4b9187f49072f42d);
 (false, 0x190606ffac1d3df77055315017e98bb3bc01783e168585a8312515a47ebba56b, 0x2702d7a360ff0899b132872a6982f80ea889f25f86f54d7a55494f156440e772, 0xcf093092f6abc2b47d5b7f761ba7188e0124bfdf0601670cdc3770717534ff4, (-0x14d35ee1bb791640e531209bdb22802346fca9be96f693596faf423970d47fa));
 (false, 0x25b1a10f4ea70c015c776da7560f21a85e2e8b12f1dfcf03468c1a4753b67fc5, 0x3fbd2b31d52a14a26d1a1736244531fb45d3b237088a1f3aab9c7c59c9337cbf, 0x1d5c63d675b36068589315f23bbdb32ed3397d6c61a9d1667475d01112ea9130, (-0x10dc296fce1bdf21e4978cace7f83e1563b7aa601619e288d4bf9fde8655b3df));
 (true, 0x25ac1199d83cc25e6c9ecbb4a27ba9670055f47a17c4799e43519b3a2bdee129, 0x14412c9b8e7a038d54aeeb653af69e4e4ea00110e00d5dac70c2c404923f87a5, 0x1d53baecff18487beb73c31d61208450e2b05caa4cdc158175de1043c9786be8, 0x13d2e94d850eec8108e7d4f8d656f0b0c1c734e4480d17cbb5da6b0111a34097);
 (false, 0x2c8856e030e03a8981c986a8085364103e3ca6457afaa7b2cf26a3ff3926b331, 0x56bf4cf81dc76e863723de80aee68b29c6fc2fb5ca01716604060d622ea0185b, 0x28fb29a1a4146c2d1129bab395abaf43d46d676b3d0fac493c5370d9a11bcbb5, (-0x8045afd76e154b2af61652c9893c23f2b10c16993e8ca023e46e392fcc0c607));
 (true, 0x12ed1bb3eaf3fe93244cf522f91cfb3586266bc1730cfa9762fdcd975a4c8bd5, 0x39fa3cc696d94304b38b5bf11dc39c1c7f41e2f0ba714e5989597d72ceaf0e5, 0x766f025ef1546042c914bf1a161b7b456b0f0ef339694831995c89b600aac18, (-0x69bbeb78be0b8bb48505ea8826485d0d26ebf658300bfa3273e3119193471d4));
 (false, 0x94bada0c2a76520ae83bad15a6b1539c34820fd39be33b36548b1a04ab9e21f, (-0x25ebf58d1738935d5d1736f4195887b55ea482a748bc86ff94606fe1413b48b4), 0x1c91d3019c396e9bcb23ca5eb15f943303007067608d41e1c19ef9f4ad33b5c, (-0x34735fafaf40fc16b7eb8a47d7ef5355a33e046e9be575f3dae8d35fa325428));
 (false, 0x20d60ce70f30baab7e9b31ded3a653158e038acffde784c82cf5e0b21612acfe, (-0x3f79b646079c4257b1d152fa72069f07f35a77d9744302a5f2902fb5907f3231), 0x1647e6dc0484fbbfb52fea2f954910e5813d980a234f4f5bd078569671f151f0, 0x115099c653aa1b77c397505e4321737a06ac3684cf6b9e2f73f531556f420b94);
 (true, 0xed6698f6fbc5737b9fa27705d725e89042482bb66aba26200cfb9c35cf017b2, 0x56e1c01d8d15339a3c881f8068e58b8ddb4bc049625115df5e41f154bc776d7, 0x48ca43c3c8ea71e63d66500fc80cb263e8aa04ef6412b58289f88275e7d1f90, (-0x903af89abfe9f8d858eb6a403cac2be7555546d7b7c58af2fa01addb7db8c8e));
 (false, 0x2f019fc0ab126e0ac86377dbab3c550229838191f995c595bca6cca76724b4ce, (-0x895c7b1962ff4d172effa5f786f1af7ed1595b38fdb05f4dc1339a0368bb5fb1), 0x2da918a944db12c22f841b3055fb0e30da23170f0a37445d038a391ea783da09, 0x48177e93fcbcd1d9efc14ad2a07e9e6ef0b468f1d57510569cbe5492a43a0c1);
 (true, 0x212565f9489f19cc55a00789ddfd85b34af62a79b9c7473fd12ac0156f856ac7, 0x1d1744c3d6719c25edcaffb22023f48ef18a5e7f9b02ce2f21e6347f785f9d3c, 0x16b417b86a7dfcb3582fbd122a48bb0e6a5053f031a7d2953ca7e618721536f3, 0x1ce8785435e880b95c3cda5c49fca68c6e8278040eb6d3c3ab7f94dc98f9fa76);
 (false, 0x779ab181cb3f25331618812b147112ea5df61a5406d73400119c5b049d122e2, 0x42ea8731e2e65fe6c114c0f0458d50867e3e53777084e10b36dbd3ac9feab84, 0x1279c8eb88f41b84e3b55615162908a2c25d55aebe47e51235b3a327e932532, (-0x4cf05422abb2914945089b3a54dccd1d16543acb750fe9f12bb3ee68ba6332e));
 (true, 0x43597f3f7a1a1ad5a6777395b9d351fc338e617e457ab8b66c82cddaef0727f, 0x2bb22a0092884e374f1614e75cc8f2ca8b3533d52274085cfd1adc040010442, 0x5dbbf401a0e14c09d6b6932a001db27ae63b4cfa5f927470d21e247ea074da, 0x1e73eb54bec6e91521a9294c9b75b746d5d782a6ee9d986c02710f93ecb2b0b);
 (false, 0x149214e5dbe70587ff0f61a06c13db757c70cd62c486461412008aa7823f3827, (-0x110687ba00df19d37e89a30594ed7a2aff168174f0319b7bfa1c2418fa6ddac), 0x8be8818a34dcd0b17e01c317813b7048f9bc0cfbd80182d6b390eb58388b20c, (-0xb1909ab0a3c1c3816664ae4832694d7e862bc0b859a2c92a501b2082bb5e049));
 (false, 0x9a3bef7682411722160861e27007b8de5185ce265fc29c789be5762218e0ebb, (-0x4872646e1aef575a5fbc93121f659bbd8daf2eab7b1f289d83e7e5a8a7a6f261), 0x1eb92f5d2577e285d4d681539647e1db926ed18eaf98e7188d885c91e0604f8, 0x5414e2701f951faa36de95775bdae69a8dbdc87cb81c33a9440364cdf96e621);
 (false, 0x270d5efb825ba55c430b5c5a71f84c4912dba0405ba82bd967d0a3ccf6c61128, 0x1b9b9141684d1fdc218c5ca932b427d42a5a604ba8b66969500ad39e953225db, 0x1f83e278aa33c3bb37cafc6aac0b7b53688386bed0dac9d6fe4d19b527fad07e, (-0x514275aeed18525bc6d8e7f7d4d56e95734a5ee5d3e7e6540045250a78a6b4a));
 (true, 0x11ef6256e74fe9486758d914a212ff7df3fc6bff6327ff46cdefd553bebeab5b, 0x5c1f242d1b919ab94234779f21a1d27dff9d28dd3135ab02f7d9867f5c880da, 0x6a5ab7f3ba9c03fb4a4d39ef7a8a9b207a33f3b4101ee2385513825efda8d0d, 0x2ba7a475d77486e1fc2603d8b6e4a7be8266be8550b59845394ba40c1c0e936);
 (false, 0xca6ec11569883a7392892c6d6e555054e785601c8689eef0a84ae8a60319fdf, 0x98217a3cc5d184bf7332f5a1f6780ceb6e795fe43b529cf8bbbe2a28badd31f, 0x34ed0e81fc7f5924312146e1dbb6eafc2b294e54314774eb098a183be79b2a0, 0x6c6826e24265af1eb9ac47e35b8d1d09ac3deefeb7767000300fe9ba68c199);
 (false, 0x15404a3228833406d771218b4d90ba518be69f67a5cef9319c04a059cd95a180, 0x1019e75f306083858792cf71b743654ce075ab1028f09ac0e12bd9e1bd13b86b, 0x9551682b12b96c4c0d45e170ef46cbd8ded99e4b27d6675ab24a264cf1c9cef, (-0x2716e37dfba4183d43e9038755f33d621aa1fd240ac7c4f309995f896fad9b8));
 (true, 0xc617373f1729c175354694d96b268fed7293c767561033cfbceaa382edc70f, 0x31998a2f93439f9ebaaa11245283d2ad836d542148fcab2e0114ca4ab87de1, 0x32ae110dd74e6c8d4dddd9e1272f3c0f05270ccf9e0bb6b637ed2c54e9f7f, (-0x7f585f80433698bb6ccadee73e4a7087d638b8ef42342a1f11afedcefd8041));
 (false, 0xde80c597506ffb08aa26263f261d951ea7a8fa3313b99cc0a3c41ca6c187aca, (-0x636223c689a129d50992f5ceafedc0598821c9ab7c051cb31752dd6c583b5ca8), 0x3ff0e96c1084852bff3f0ad2287ca8aa2b0b6fbddc6b4d13615d09c6f489908, 0xc4c0ea22e864bc91e603451712b5ccdf7752f70b2e94ae6749b65a034e0b870);
 (true, 0xda89237fca881f49b91a713ce8400dc92ba7f4c7c54eea400009e5efc46f682, 0x1f64f555b88694d9c9641cfe4a741bcca4cdee8b9d08cd8eace175402f015b, 0x3dae63313b92b13e39560fa424971daf53134cb24b76b153f0b9ce4c7555303, (-0x2b9471dc8275fd048af4bc0deb857fc7d60f8a5a16e3a5a4e74e890d618ec18));
 (false, 0x325be9a5a6497ecfa16e0e98f971efe43f21d158001aaaa735746664b692a93, (-0x2c2285e5d00fb735e6d54e5f8a8cbd02e855a198311efaf9cb360a73b7301da), 0x3467fdcc4cf003ebdc59138873413930a29472157f86c7bffd007b600fa118, (-0xc6e72026a73f3f22b6cc5ab34b718c1d3f1eba1a941433d5b7dee3058aa8cd));
 (true, 0x28f23c488fcbf49f452eaf5da5e3526da766fc36d8cbb0ae7afe545eba5a661a, 0x12a40f7020c3a3961aac5a7e129fc5fb6fe66e977fe1109ac7f91564d413c85b, 0x22a56efcc89977f8d1aba2eeaa984fe1047cdc89990d55f55cfa76454d2a8c90, 0x7124de6f1ca4ae6dff6d91e38430cb7cbcbbc7e40dbeea6652dbf980a70fae2);
 (false, 0x461c85d4404909e4658638684f3a126d899dbfda76618b721cc90c5744de3c6, (-0xb39e7deeeec69ebdb7e9f6520d31ab34f377273e06c718eaba535bf98b21438), 0x6594519a84e9d9d6d62e75431bcf7e12c49c783293c86dc303f34ee56507e0, (-0x29405404b329382110b7d599a9baef36c37840dca355c4575cd3817c38ef978));
 (false, 0x19b4e8b6a36851d8511d22be57d260e7cfe283c3a3094053baddfbe0f7202f51, (-0x6a8aeffc693876dfac080efadce6ba64e2acdde9f162af3ad28eb822688556d2), 0xda7e81ee3d917ed3249827827a5489b4497b640b1901952d7a9aeac59380647, (-0x33690ab8a1977fa7d0213cb7f3ffb7b06d83553fea654ddc407dcc114d907bf));
 (false, 0x29653b3ac75cfbb0d11343246f2b263d6937bf4674f55d0b8c2769f3cb743697, (-0x6abf25401dddeab284e332e90ef07d529bb9334f38f1b89fb725c2a0cb962be0), 0x23691b2b24927e216d1e588dd226d00980d174f3af9db65b42e748f08a261b7f, 0x24f40ec552920006f53eeebd68cc0dd014a58856b6e4f4fc8abce66529dd84f4);
 (false, 0x1f32f77d3ff5368c1f4d7788afbc139230e99f499126bfc54d2bab562e4ab7f9, 0x216093995e7cdc734863e9a69e66b57590568a374784c3dc77d568e66edfb2c8, 0x141d57c8fe2aa9387d482a91a98625539faf178f83cb883d7b4f758c91a95b4f, (-0x195a7d46605eadee6e8e731f1d218beea731c1d5b7ebd6c9074be89bd2a8f7dc));
 (false, 0x1a9016f2fd92266d1b45e5291954ee7f74026f5df250054cb00f67ed6498b903, (-0x5dd38bc44b9423465919187db9ef1648daad797f2dbb61f90da818a308d249f0), 0xe94a68c3768970529c081dc36ffa57208000f26756f722be719f9eb549a08e6, 0xf07ba600480f91dc90207aeed6eaf22abd099547cea9c85d8804efcecb16cee);
 (true, 0x1801a93613c153016e2ae6bef60796bb67866f65ae2de9259db128799484bf17, 0x8671908879c701f5202e0141c85bcb1531e820473e76981d05b64b61dc05d35, 0xbe8c6312163a23208351388b236e5d982f6620632e643eae9c898df9f1a9bd5, (-0xd6b5d2cf3e190405937d40c71c663c9173b1f96ee63bbe79493b6155273a629));
 (false, 0x2df04c2dc9f1dd6a0b296b8da1c797148f46ed79b251290cf6a479d6c7b2a460, (-0x2b182dfb4b64c6fa679f7b17ee6fe14572c8da9294e6ff9ae28ca2a96eb7e994), 0x2b9c1ff226fa9dc3a7e277aca9007929ac0753cc0ffeec2b04a7c4533ae01163, 0x18628bdc5d4ac2279dd251c00f40213648650162832153d076b94ddbce3e815a);
 (false, 0x13cbdf52a74e874e5de6d76341eea0e4c6dfaaf76c2c08f4300327ec10a861a2, 0x4abe6d46b0bfd24d15bb52bb6561b3e2084bf75b4738b604617f3f8149e8807, 0x81930feb52bb0cc2af283a8aec0ec28fdeee7b51733190090fbe7fc1395eb35, (-0xaae5d7b4b04239adb907100b09d9a812667031f3431bea08232de0282f5eed4));
 (false, 0x2f1a8d7f619caacd1e7f3109063fa15cfc7550b9e3a7f68c985e1cdd32b1c1c1, (-0x7933e1d1ee080a6d168218c7f0bcfc468e39431f55c35bef5fa3d3d48cbd51db), 0x2dd99391a487b2435aeeff3b0eacfeb658e764809fd6bcb92e214ca04a096301, 0x10d22ae63f6672f28b937e2c30e0b4805f66c434ebb90f01602dd6a8542d9cd9);
 (true, 0x1ed6a5b2d0f7e34a7f771c4051ab90ecfbbe1eccd3e9580d91d41805bc02aa71, 0x114a09c3aafda5f398c8a211071060d2c5a772271fc9eb65419707b5d492f80c, 0x13a6fda3183ec6c1495c1f10b69933751631d9e07f87658707cc4e29ebf232ef, 0x12392226a81a084ac7e728eb09595bb5ac683f7ee79ecd2bb7fc76f6b0a26ad);
 (false, 0x3f90020ef50ef013183acfa6cbdc41fdddf6464616279bd987de482ab6d8116, (-0x216030b0bbecff26dd83a07343d3e21859e67917d6ea0c2bf7984365376a6e09), 0x537d3d6afe98a36ae5a2ca5c20070d7cc133b64bd46378180d7658539dbe85, (-0xd3a49419a0cf2ff250db1ed92ae92f7d9ed7a16496041143a2cc632f161932));
 (false, 0x17b2670480f64263c86f40787394ef11bada6e427a6dbdbe8a5b0ca3379c68b6, (-0x3b5342b243ea9447ce33a08af3d7ff2fd7953ad3c37e6d5be1ecddae7a5ba6c9), 0xb9aa4a87484b1a4a8be739cc07fd49061a3f0e0acffa53033528002ae2150fc, (-0x2aee3db39a289efa1580db627eb15e3b73b4f138ee9703236dc6b6f59935de));
 (false, 0x1a10f99b8eb7335dee5cb3987e197b0b1136a3d9613347b91933c8d60b79b440, (-0x2cc0429c73f6d11500a6f133811413a19e8264e4eb32270bd4d1eaba75d9d8f4), 0xe0a67c9431cd626174ea67da8d09f91cce9fc93dc09d9c25f363f63a09082f4, 0xa04980c7036fc80bbd0717e6bc0b0c73c988a8bc9ca472eed00f4f1c398b88);
 (false, 0x2821929916f7c0550a8820159d9527079e75b13e35f50fe129f7ccd13491b04e, (-0x46059ed7d0598d87d937fc606f13999028bc38ac02db197c0ec2e95adac9689c), 0x2147d51a210a8045fab12dd1aa576a6e0a0cd1033331e3f8acda189e257097d3, 0xafdd01bcd9330c78683e3ece71c792d69e6a4535eab70fd15fa921590ca6c75);
 (true, 0x2afb6cd8dd4174876fb647624eb274663b462d4f1ff555b5a8f7d8d1b3a4b9f, 0x12f445109373418b8ca3d9a470cdedef935688c6b954867ef155fb4fe76c50e, 0x262d5be4fa31e52406862d938c45b02294009c51db7596a949f03998422ecc, (-0x3b432ef9f420c55d19345d411c35350127209977f214b3f40ee55bdedca06f));
 (false, 0x1737025e1ad137f6fcded04796fe7fb752ac3b87651968281128aa35c04b1901, (-0x14bff2a3b7de6cbfc9ca868ba7a2cd3ead6aef3d9b401c9aedd8e90440cfede7), 0xb23062493db6f26aed308602564e302ab0a47b6d946102d238e91494be28a6f, 0x5af837c33432f2af4da4ab0bb09d44dae7b071dec41d04c7b841b36662f8662);
 (false, 0x17fb9f70320653fbf75b45c642f62e505fa7bb68479573da6587003b01688473, (-0x9e67af4d31230e1ba63fb219aef1b4ceefbfde6c1e1b6ea23d6a290615e769c), 0xbe2c946161d8db8a0fb98b26e18ce8295e64a9c17a166fd75d1eeac628eed5c, (-0xe2af772a1ea5ec93c0f00dbd377df8858f453db5cbd313f5c7a0f60e0240ec2));
 (true, 0x16a1c092d3cee3b45250b2840cf56119492a00075dc039fc3f2794accfa8bdc4, 0x13c1de7adff720ebe1e97c229bd5f97e27192db3f226f466b33b3dcb77f2e4e7, 0xa959deff6276fc1e9ac2a10b90e94008bf6bdb97ca0bf700b990f23d9d5d432, (-0x6beca3453457c96197d43a587ac2372e6aa7ad247e266db7f7810a2e316fe4));
 (false, 0x978ed0826091a030ff17d66de9b007728f79c70e79dcf6c1bec95a922760822, (-0x61c2ad78681451e062c65e6fca1d6b74fd701380c3e76b9d79c87dd003b99e9c), 0x1daa99fa3ee0a485a838cd8ea75a842c87d91fde6f424be2e89a020239ba87c, 0x5786af0d8e57fa3503058372ed8bd65b587b2dd8ea888837c0d7548b581c863);
 (false, 0x24fba357ab49d6fcd8778a36d82f44d33f0028512356b6880a935c20f529a9d3, 0x1bac43afe16230aac7ca79770f15129e1e525be07e5a2f1baa76d4446e07caf8, 0x1c438bf79ff6f1a28841c584d1d6a260a7c133a40800a73c6f50af7431ad41d9, (-0xcf86941d40a749f31de4740c1c23155c20ca96febf46cb1c90b6fc2dc23252b));
 (false, 0xdbd316a4401ffdabeed844c21edd205758e37604aa6cb722f6e478b9c87bec6, (-0x332cdde91a3339a893fde3293501aed82e2f04d89538a9a2ed1eb9c97cf927f8), 0x3e69311d284d6d27610a8b694c6e8de0e598f4025b1dd4241cf6077c1262708, (-0x31736ebe3f4d26686e9c24a7f4a55a0d6bd8d183c412df14c3f0c4f9cfe60f2));
 (false, 0x1a7cc0a22457ed9f6ed2e7f7677bc3bb4dab9fd2e9600347f1c6ceaab678e1da, (-0x4fcadad0adb4aa06ee1428bac77cfe5585e53fea0ca5f6aa0e72caff3cc3e98c), 0xe7f73b318fffb68702fbfaa68d68e79cfa34b19284beca28226954cf74a342d, 0x10a1e3a7dc07a0d25c9c069e21206a0e0d3617619d471e88c33ef0d907175713);
 (false, 0x193a759517edbed75ed67b286cfa075921211c5b7157414902a0405ea5c5223e, 0x1cd3e25994b150ce97e858da5e9634baeeb56f2a47bcc07be07997d527e978d3, 0xd27058e206de578c3480ecc75bda7401d4906384b579fed07b752049f1adb13, (-0x22e80045fbfaf9e64965d3daa8af5fc41dd2f61636865ed463f7a7d49ae278a));
 (true, 0x10ca57f24fbc63ef305c268664f707ae710c594e95ca6f6252d80cd0aca11101, 0x5d929202c695ddf3946f933ae7fc61e5ee3be279c62218bba4f5219724f94b6, 0x5d36307f588a2857e409fa547b1cf52ad89d0f047a1666faa0d05c37976ec53, 0x16ff69e7a73c25c4ef07200933d162a38a986f2bfab308898026e0f4de07f73);
 (false, 0x1b503f719c0d232446354b81dedee24efb12ce0dabe4e5e4028072abeac7b9eb, 0x4bb271b503f9fced2024d3903c57364ec3adb1e53399b3fdd1728ad7032d2c8, 0xf6a96486d8a7fee77c5feb2c1f61816b58b80200edad2d479a12b894e534b35, (-0x2b3263b3c5b580f4b52a10abb56f7398a10edd7126c69b76051980b8e7f39ec));
 (true, 0x2ae1494815b55d8c1295bef470e30f9c3b9d5ecde6954d2d5bdb407324c81c9e, 0xf80d75a8ee45e960b4765ae3924448d0b3f915e2f7da855a26dac002e2f7e3a, 0x25fefaf974f4fddc5cdb3db123ad22a42a40a2b99d583603b4f8726420020dc7, 0xe438457f1409a099b35380401339a6a11f63d1404e40a0d0ddf3e1671f288d7);
 (false, 0x6316f89b2a683cbe0e2d836fc7e8b40bf57834c882ebfd72355300ca3dc52de, 0x24cd7d2ec92adca11dab6006f742c6b25808bbb610035d95745bef1c398d8a4, 0xcae6cabb4e641242af69be972c0b02aaf1485adeef9d1b6adfeccfcb9cb68a, (-0x107b9e6a3a9a5a3139e57394582d3dfc205039a491c170a85cf5011ad4f4485));
 (true, 0x1a473f7596853a2cc622abf7803b11cb56d90aa007ca3b1fbb75f9987f3a2093, 0x5217f694c21381b0eaf38a3ab0891c1bec039e28df5863a411bacf15e343ddd, 0xe451c8836ed283e8b915afd5c580e46d980eea7492aca9f5bdbd46d5569daba, (-0x26121597b73328538ecd8bfa1f5feb08cf7b1821a79e3bd920edfc9a39881d1));
 (false, 0x112ac69b25aedf1c57bfdd858a633c64e213bed6571c2d8d16be4384adbad91e, (-0xab8c6e392d85fdfbe259797819636bd28792d38bfdabae37bb8776f79f3bc94), 0x6170e25d1847bf3b5f4884d551d321c4a5671c9d7e9bf79443bdbc9840413d3, (-0xfa708805ee5efa5c3be73218d3a4fa0f326fb88f2ed5eb72ba939500f2ccd4));
 (true, 0x25591440398d763199a300b58ebf59b583b270025f858d432008867667ee1924, 0xccd5fbb4127504c5dbd184d36ef054b2d86848539ca2625bd39dc501f3c3699, 0x1cd3130533d339ed9d69907e548281dbdc9b563c9a261d3ba6e888b07c88a2f4, 0x7695271bbcc2047acd69056f0ff47802b8ce8ef17f93a216aeed21432a89d93);
 (false, 0x1425f8c8e67d7b1124e9ebc9e66698196ba235bfda0b288b7c1f8036626a2733, 0x261d917295aab6bebea94c035be145134eaed26f3702303fbcefeb3992142c8, 0x8639039a8f0ecd6e3d083b68c6cd64b1684193d7884589f30ab8007688c7791, 0x239849153ae5e4cdfc2cbbdf155dbe3c0c77b68050af1053a8c7b617ce35f8);
 (true, 0xeef78f971f44ce0fe195bbfdb78d6e742b0c3b689021fd08c3c9b98345c92c0, 0x20d7f2be08fa10d5b2f0cc07e0fb3388092709bf0d703b71fcb49d38a865c70, 0x49c0f4ee1f0b6a672bbf6f5d59551ea798a8ef7c9e3e72dcf5d74c235c58118, (-0x2db4de9be52411cd7a00d02a0eee1e1abf7e620115a3d51464418d71d497285));
 (false, 0x16ef2108d833d4701e0af8711ce3d35fc07ef08a3b05501f1182dbf79f977622, 0x19b6c3ccefdd425cd73e53546a7788c476c60f759b6beff3884aa9c9cea9a7cf, 0xade79aad2b3c2d30f4e9a6080bcd59b2fb8c55d27a1bec8b9933087169f9203, (-0x8c6f770835d2e56d5b374681f6c59abc2cbc306f93b93d5d0b1a7e54e1d93ac));
 (false, 0x14a235b5fc6daf089defaf9bbe6928f0e9f0a5b93b91587108754895235a79c, (-0x47bbf84eae7196cc0e977bad1ef5258683fa5025c766b73ebd94ccdd5ba63ba5), 0x8cc43a9d20c5d85b20a9b60b634741f8966942e99c031c798e9028bc44944, 0xa3a3520f2ac19217d2216598869b74a7418ee5adb84eaa5b067cead075c68a);
 (false, 0x28cb70d401b09f03851f69929421b11ef94dec3cbf2ef77770d2bcaa44945047, 0xc6ab4635c7dbbaf15a7d6edcff18b6cc53bf3db142e6c5127aea89d117899c2, 0x2263e74b896a251f67cb873616cda64b30d5f60571283f5747278ee40b4c8aef, (-0x19d8b3b080614ce6851eab5c9df8ad3016baa7b481e4d646261e16e5dedc015b));
 (false, 0x2126fa8f847daadc2709260cb3dee099a1d1fd49306040c1b76f4b0a9027312f, (-0x36e1639fbf06782ca5b94e94b8956b520e9a57b8b023c6b2b92b8d05168551d8), 0x16b6420470114338bdf0c3acc6c1feb0f8eb4d0f2ce82e2717259e8bf01e2c6c, 0xbb82365e0fb9f0c8af71e33e65060fd0a708ee042838d6b30610a79017bf3f6);
 (false, 0x26ad428a8400c1cb8b07b2c320bdf0f5f5d93a089343f18fa67a79548deeac40, 0x1675719bf97b670191fe143ba16afe7639357ca8653abb8aa0c933a49acee9a3, 0x1ee981c23b45646ada41923d16fbada1cc8fea696e3566dc4bf4ad9e09592504, 0x8a7f43d704eb78cbf5d1bed887e047b6a8fe68f73542f6af79abf5a2be8939c);
 (true, 0x14d46a55ed85569eca73126bad7eb3021c2b311039c759885467756db98e2405, 0x5aa8f436cfda3edcbcd536c7171fba675dc9d0b7a00ba821b14734392b86f62, 0x8f74820eeb02ca5f0f3af95c2830fc477e57e5ca9d03350da19070f09c91735, (-0x31964a36251ccce8ba538a62e422266a1e4b9d428c3c10839c32f498599c6da));
 (false, 0xc1019f9ad28eff79ae4c79aaca8048cb7ec99928ae3b321a68d1364f8ba9ea5, (-0x2d905cf1eaa566b4e03f008e63c59f01c374345c6d51adb0bdd748a6d111e1d), 0x301c9bfcbfb1ea76ff96782ba9f83903666ed6bd408cca994ccabc8629951c6, 0x3a4b42e33552ba608322ad3a570732158c65509de9bc5b32d23f2f1493da9c0);
 (true, 0x2b909321aa6617f19f757ff5efdfb6972f49977555d558fdbbcb5dcd515bc0ac, 0x52cb9e8ece110de69884b02e1acc55c3c894a40a453f9534d8a5b8f65f33f28, 0x27381b69639834e56067c2203ce9c2c1bfa07355dcde4c4b8caf894651364c80, 0x3f334489c791390645232ee21b5f11c023017debdeae95c127fc2352e31a81);
 (false, 0x12be5486802680c1db2af4107bd4b7158dcc7d8a093d0156d65b89eea9e917e, (-0xf49fcaa9a8a740f8b67c6be0f7a529766a6f53c536798decb0e21620b4e248), 0x742864d57a902dfcc4756dc82dfe841e1c63744ecd29a1cc90d40253d7a00, 0xec631981e396aba8c0fe04eda65c6dbc3399e620a31ad957e74b6ceeac656);
 (true, 0x13c165a9c16d6c470fa330cd793bccef56fae7f36394677db91df486b668e497, 0x142eb2f3deff618768172288ebe456afb789817060e26263d326feb41be7144, 0x810a135434ee6e2cf4c33a44a25c8ad2fdeaf79602cf360f42a584519052297, (-0xe6d4ebb41f8cdb7cfc068191cbe7a2baa8e8daab85af1b6c5d0e9777ed72a32));
 (false, 0x185dcf5a05ec1ef404d97cb5308e5473ce87daa76f2954384228e890133dbea5, (-0x4cf79224a33aca3f9b48c43a9d4ea148ddce0f6bc52bca5b098607e55b6ca801), 0xc44e31fdc874a0caf8dc6c4e594c7b03bd52b680d0308a71e25c18ae301211f, (-0xd36d1abb8f5b7299833f3c2b2b05c875a668dff58dce3212f7aa13854f7111));
 (true, 0xf6e90f678bf7b860aa218e4366ac0bdf3dfe764d820a2b01fc6b68faec23fb8, 0xcc7294b64c323d8b0b4e272b4de89c04f5cc45742625bc9a57fe4982fa7a738, 0x4ebd0a1363aa1fd2434abb507f7db2ae9782dcb3be9272865d43569b7c80951, 0x1d049e5e2472a6fe6f15455e3cc5450563d8c7cded3807d105f8a416ab2abc1);
 (false, 0xd14cd04acc48f4a626bb0c82df2546bd40a1546a4ffe1904838ac0cc536923b, (-0x384dc23f911f3f59014d756f7d8ec32ae7fe0d208de7bcb9e9838eb113fa3dbe), 0x3893f0603a9a0a46f2ba54cd1ff70024017f0d753a505d06bcef4b7073dc68f, (-0x2abe24af83e1ee414b1516d0d2de6037a79fb1b9481699d9221c0cfd182dd44));
 (true, 0x168f7bede7dff322591979f2a032fa4a72e40270fa658fe7da5576732f74fd0, 0x14a2ee0e191c2cc90b9d848d1bdbed466a81f56500c4e79deb04fa05327f151, 0xa848e7ef724391af8529eb6a9ad07aaacd919d88a822512b7a342823dc0ff, 0xd8baa61dcc97cc51b62051f186fcaf42f057cc785e7be59b7240cc21bcf853);
 (false, 0x41b5bf39dcc6f483100b7cc1318d16c912438123be41faf27f123216a5a7dd2, (-0x794f0333f59766c510627549fefb81e14834731c08dc345c5c7c1c3d4ff3f14), 0x5939cbd5ba6ef8d3aeb02a3f2ba4feb60321ea233f3d4483c1d409af8016c5, (-0xb2de885d7b85ef4780643404bc9da1e3562fb53b75df70a4484e71f58131d2));
 (false, 0x85a968a080100e1c8ec4fef9eb12d106e76d4191d3043c596a3b7d32cbfb521, (-0x1ea3935b5298246600ca18e3dfc45033bcf6a9f2734eab9fd7e86254a3343a3d), 0x1712efc728cc21fcf6e9782a7505fe538e344d19e6d2c5d4b57c19978933303, 0x25e15450c97198d4c4fe32795b6e04578e094b9cff9b3de00c6e112cef8e3b1);
 (true, 0x2b65474a6068663b17d0ff16451020a1f962ba0578c14ef8b06596ea500bed49, 0x8b9557e9182272109aa35882ed00c01f5695a979550d2df5cb5ad78666561c9, 0x26ea4db09e5e97dead713d3528879d2c0fc554efd68488308884b212ff401865, (-0x1ec83fa4cd75bd0e8e96bc988bc225cca07d5a1071d57b73f6a60971b323c4b5));
 (false, 0xdf52e762496fa7d1623bcbf6342c29e4d3d07114e786b29bc67a27b29855d17, (-0x5f7cdec3dc66995e25a3e88dd2cd2f5e4f7379f65d5195fed94cf79efcebd551), 0x4069e81302e43d25daebd51007a11f8aa1a06ba64ae428d0c20c18cc56d89ef, 0x4a18e2c88edcf3ac7f7c903d9326ab0d11fc3d26a12233af13a50c20d08ec48);
 (false, 0x46d94197ac63f443bf5d56b89e8ad376348aac3e73812ba564286c93f7e7fdb, (-0x27ccc5ba43710bdfdc9756d3478d50f0078cd724daa2f1ea8b3a6aaf7356c71a), 0x67ba1420915a85cd36b978dc29084397df2c1c9068cfa6b2ad59573e827a39, 0x39b020d46a599f1f27962249048f653008c718bd9da475b9e1d35423adf22d);
 (true, 0x81ef7f8edea1eb6844b58914201c309c85996704c0d8749a36e3c71e250c64f, 0x4490cebc7918459b02f152a862c04fd754a9b9c34c7656b997bde1591c27a03, 0x15ce2e5b53fcd172b68345dc269ea967166bc834b168b4236798847f886dca6, (-0x2528b4da4955f0d0b1fdd243fc550c6fb12511e5f4de5413494af9ff248e367));
 (false, 0x2bce751a66a0c1d0e94fd5d8411c8b8c8a0d66c926257980500866c8eaeb101f, (-0x25fa5e40a60a61e3a291648939ae533f9963b80f06ff89ce5e9ca42af6b0ab4a), 0x27a7d6055de2a984ec4a70dc26b88d5489903f00dffd7a571565d71170e6964e, 0x5f2995983335554733ce671acfce38dc0bcf6c9147ccf3d4b6e551bf1631e37);
 (true, 0x25213f86b5b4e75604570a5f56215b8c29750e1b2ea550fea08bd047e8b28bd9, 0x192b9930b26f54ea85d986709be9801752996df74763194fed2e79a9b21cf653, 0x1c7d25aea2d3402ec0a0b417d4112615bcb79a8ed423d89396d95298880b4ed7, (-0xb52836b33b2614d8483ecfc2b3a3dc481a6ddeeed2cd30ab20621bd8127e08d));
 (false, 0x25bcc5f50aeda3288d964b633677a125d81beca89f9d9f0b9e6d8dae7b3aeaaf, (-0x603f836d2a2720332a01b3b7cd7005fac041b2ab7a8caa4a9e3ca05c63f44162), 0x1d6dc2d249fa1ad9fcde297cd9c09bffc9d95334bde4b799170f3814e002fd0c, 0x1bfd7d5ff423e046b4ad88767c6c7019b51a8fde29bfefbd2856df22eaa37166);
 (false, 0x8c47adb37d932755efd1f77486e63d7d467c197fe4c80ec201876905037e47e, (-0x224cdd7e06959dc8f5bef1c14e57be502e36d5da01cd18407aebe67b992b87d), 0x196a61852dc53e9baaf99ab9d9e6f66a8d151b5991c022550f11410c2f2b636, 0xc1e424f59124ab7e7ded54e506f6fbf298485e65938c008b3aa3b606d79159);
 (false, 0x2df6f16ad800f5ff58541fddf596a5c1ff20b5d5d7db45df6dc6143bf7c52a24, 0x10bd24e6b113116af5e6ad2b4ff6f9ca7f290a31708a6ba3a1b54323695cd4a8, 0x2ba8bed9f5e322fa24eeb181baf4f8c84c5a997a68eee9d89a781f14f16ae80e, (-0x2626d98da97977950210f2c247bd29490d9833740a3ffd3d9bfb01636a31261f));
 (true, 0x13ca70ed1693f62710c0bb4f82cbdb564f56d575e64f4a56758ffa257fc3bf8d, 0x137d42648456f988c38b2c3e9619b124bd3b1421615db36c5de2365adc189073, 0x818054328e2618a11604d6f317cf878819110fcbc6fc0ba0960a89fb2160e43, 0xe9b9e33e3a7dfeb5f6705901998a5e3498abad7aef3c65acc364c2a6f7a8041);
 (false, 0x5085192402d00d88c817eaa927e8b85a742206abf3092d25f279643c7bc63a5, (-0x851b1c30f0875d4724cde0978b1dd7a0fc66250736529aa1ce2e16fbcb9dded), 0x85fa7571c034a29ffbc98b7e72f43440193190533a7660106d2e90fb138897, (-0x14679e0988c18145201cc5884b8f6ed9a8ec18b845251372e203d0ceab51a23));
 (false, 0x300729d4dfec0e9368061084271ee3ff6f7b65d5dbd6d145cffa1c17e8619f01, (-0x1ce57b2e8ea570b9ede7ec7119f25fda2c385f33ab8c35722d44706ecda5ca94), 0x2faab87e3a84b320b84ec5480da7da35b9c18be4885f25fb0e9a1e1e36657fc4, (-0x17f159e2fac9dc006a3ccea0aa87096f361f60b3c9eb7c4fc2de7030389b8635));
 (false, 0x22755096af8bcf41561f4efd833b9327a99058ea3df1a007846cb4150cfe0c92, (-0x868b5ef301eeb580d7962c71de8fb5bf6b9ec2975ea338fcfb20910339d38055), 0x18895fed10c6017cdbc7aa480cdfa510ea5be6974c11fb438036fd6af467b73d, 0x19fdc576d1234e9e0d1a65b286832dffbfe72a7945bea244eb72e83b816ee817);
 (true, 0xcd215c14273a25f3419a6268f903e3f73a2405de2391452924f2a6d74787de5, 0x321cdc9a50028626b1dd4825e13fda8e5a4077ccdc1d6729b08732cd8e3c603, 0x3658949380f74347e8f4de84c2a2e3d5d00e256dd260e38169e4da5251d54d4, 0x1fde28b989da8f9a62f6d0b365e912487eeff43bc141347be21777dfb8380a1);
 (false, 0xf6a4f273b950b0266bb87cf4a7675d4597f3708378d3814bdff7a19f443351f, 0x7f4022b6447de20c12f27fc716db03688eddd23a96f3a20c92d9283a53456d3, 0x4e919ef6231ffd488e1000536bf15ba6562217b4bcb905dd7addd116e69612a, (-0x8142e9c54b4b1b16968cb6667711417230f8168bdf31ab255df57a9d30361ee));
 (true, 0x8b026eded330832eb1ced5b09d323467f5733086387527b1b82a8343257869a, 0x55374f4ff65abba2798af37b1116b7d27b0fa45acf7d2e4af5a1506103a7a74, 0x18f50f79c50129cf1af5db16894a8de3edaff4242347e7be33236b63c56c88e, (-0x10f65942e67908723d5ee659e88f1b8c81ab4cca6544f24e3c3d647e920c0c4));
 (false, 0x2d66404c74a46fc6330fc398be410a96411aa572394cb536b1442da06af327fc, (-0x1e10808fabf2b78849197e8e6fbc1fea657a0fdc360c173aaebbabf7edae2300), 0x2a9791014cf861be8c1d0def5d4db3303a0ffd7340468cd31b67ea91d733982d, (-0x75859eb9bdbdbcc0a0753ea89a3866fbbe2c99718f52100ba7327e8b2a39d64));
 (true, 0x1bf8c7bb94720af4b6a8289ac784d2dd2dfbf24e813832e54ade9c38358529ab, 0x19160947361b28f8acc444868f01666783baea7307027e9d550c5142907f1f62, 0x102b20805b430244330c451cdbccf0bf6603e49c29341e89cbbbe44791657f84, 0x124ad6d6f3ea24e630bb839d94f96dcc06fee0c4a15ac41c9eb92f2b5f1699cf);
 (false, 0xe5ee4161d20dc899c24ba12f40fd727772330deb68b8c9dbc73053845d99441, (-0x48d6e9106d0602a37d0eff5fe9c5608027711e11058e99bd83c32cc85dc3d67), 0x4448049ad6ad60c8d4869be1f1b94632dc60a82841b75d3f982fcb0e4fdd2cb, 0x32f8fcc31c1828d00be9840c66f13c5a4bbd4cea66cbeade4b1ac046853f8f9);
 (true, 0x13ae82990bd0df9cda83e73b46e9ede241e7eb9cb7d46af11bec80dd7f636aa6, 0x6ac5ca4366e4906183d3d26c73adc8f46479f8ead60f431b934ce1c34af619, 0x8013cd971e21059146a221f311efba132c398df6f06bf0a0bd145af9c1f337d, (-0x652ce21f507aed505e434cdccdeb64793768a78d1f46642ad37bc688f3ecba2));
 (false, 0x183faff29bc7234ce4ff36a1959e56f3028c5c8e843d3d9362f81aa775f5db8b, (-0x53c5f43084be461410f36e124f41c6730f6295b39436ab4bbbfe51a2d87e492), 0xc26a01ee44782f78c68178257e8ba1b4b90c98e49a74e3170a65ac20c3a55ef, (-0x43544d3d0677d6a4717f01a1f461a9526ef0af913f24857a932deb35b75a9b));
 (true, 0xdb35c0a13d22d6378aa846b3f54b7a703f8c9daf758393cbeb125ae3e421567, 0x4d73be5bfcca25e84d77fdaf9af904b6e452980a28f238ca56b68d61058c1d3, 0x3e0ffa3c92d35e36ecf87ff8fa2979f1f72c896d584ec14860b1bb833ed09bf, (-0x7ae69940e6e828bd117986e8b91b327b89ec9fd1801f84b6e87e35c09fe7df5));
 (false, 0xf3de17fe1fd024ea26ea892062d7b7b87dacf42dec66a2ea7160b01826fe463, (-0x61dcde70d937b457b285fafba83237d1e112f5252853fac4aa564b9fa0b3dbdd), 0x4ccf48b33a479cc7921becf977b612c103fb510622f0c82d320df783f626d16, 0x4560980ac4455fb202cd8b2da102dcb7c2f5eaea3cca0dffaee8ba282fcafa7);
 (true, 0x17605fd26c5e866723be1f5ce757ab9f2245950d4b06a8bd3f12f3e1e4e68829, 0xeb719b0457f411a91bfea95cc347c8a63909ae356d3496935438e59d451cf13, 0xb4ad99a5c3b98e854a6c48038851c585f030e4106864144169e07ce9ff3d077, 0x61b967f12b6e53611228633c6862b96abd3168c04da53333295e37f534d37a3);
 (false, 0x273021a2296aee1d39768189b1051434b15d423a98cb38ec49d5e97dad435ace, 0x1a480e812e6024f6d1ac5b26a66577d14add7e20bfa2d2b5efbb01056929bf50, 0x1fbc15dfb5ff464777cd1497aacb007842777dcb5d50a5669b93a773de73b4c1, (-0x52a46a68c5dcb24e6c22783e6bc11c11f4713ba85750f4ac381e11c9bee0fe7));
 (false, 0x240abf878ffcafcd1c936a1d668c4b9210f7c3f73ef5a4f62bd5925182f34617, (-0x1466585cf9800077ddea912aa9eb05d335efd573c3d107a5de3ff907eebf1eb9), 0x1ad809168fe8e4679914bae5e4e235291d7097e2fa544b7475e943c0d35a9e11, (-0xc852feb20e82acf3b295f0800ec9c04c4895352a2cf8248223f343bf62bd423));
 (false, 0x22b67915c02d345abcdf4ab250c21047b4a072502b391aa3cbf6e0480453f0e, (-0x666df0cbba7c8e61465def1c9770ca8765f3ee429b22b114347198aa6a309688), 0x18e682f33ecd0740a0d890b57e61d72e5181a366e5d2e39864014a9136b19c, (-0x4b436135c6b72dcd9e6d95b6b8f52f9e6dbd82c6a95b0c223f99b2a7dd35e9));
 (false, 0x18209d4738ccdd095d0af05ca53336a11ad0552e9497bf7240437b1afb7af20c, (-0x6d51d785b44667b4a5a49ae742d0e9c02de4eb888572dbaf9a436c8159f394d8), 0xc079005cfe5163ce9c9d0d7438a2a270bc0e3b9589e41ea2ef5b87584e0f39e, 0xe7b92b0245a0f36f242c39596a6d16c8495fe2cc75e0cc6469734259825ac06);
 (false, 0xc6d5cc2c25578cbfb5a6057c0e876fb6ba0cdd4d7b40f8ac5384d186d7d815d, (-0x8fd802ca8e87654e29b86f7266c32b81d72cf07016de60edd694a39f30516), 0x330fc47e09cd617fe8243e65bd653e3248af74c6bc98ae4e5a0f6bc273bb1cf, (-0x187c0c81b8d4235e7f03649fa0eb8bf27ab140465dd418d571db264bb22e366));
 (false, 0xd6ee858e4f024ed74c8811fd6729d56d27e475eeb92e59c4a5ef09258999379, (-0x22ebea56b03d8dd5069bf31258e74d876d66bb0f3f340fd34a5fd18287bbeaee), 0x3ba9de6feec90de0511bc4051a65b719bba5d8f3da543b6c8daa0fb73ca391d, 0xf5f6aee28a752bccc96a6c7985fe5adf834551448e86e3d5f79898a247737b);
 (false, 0x265094859027fa50fbb51792d7192618522c54336e097694028e70157d7b1135, 0x1945d6ca435ecc9b4fe47d538504128669832e0b57ca1e8f295d44f57f9dc2e8, 0x1e560d939e0cc773045fc64182dfc293cf6bdb8cab4b6a46c74ee65476e1166d, (-0x1490d95a7c064321b6a15d9fc49b90085f192be28379210f89ba7a45aa89a996));
 (false, 0x1d88921a8368d4ee73ad10a0355afff796ca74747fd1dbaa1e09ee1ab0d11aa4, (-0x73b3e28d5f1c37fda248e48b6767f3b3885a13371f814349c5dfcb0ba640fd74), 0x12063563e78abe11b88c576951367524ce9c4ea574fd73a9f0021d73789a9b70, 0xbd38f07236a11f07032d66aab4bdf01e0f553487749b3aaa1945f311ae76601);
 (false, 0x2fc5d77504ec52cf143ce624bae3fb43552c8dca9a53fce0ac0f5427037d71fc, (-0x190963be74863e4ca83f42c0353a450c2e96d2698c68e1348d73ccb3489d8a68), 0x2f296760a067bb91e1ce7c52cda64cce2f396c318238bf2402e69c6c836e2037, 0x179af6eb4c9b93be5bbba45e08e54910d27c63e43729e48be6060d7e221f7498);
 (false, 0x2d1706a6e9bd484093e09ae8129e36c07ffee3204614e19f14e3d278f506b016, 0x631674bd349da8e091db87aa93cb1250ebc100af62ea1844d7da74bd899ba17, 0x2a036bba21becf50f3b98de9396e7558be475723c3122c069bbf34b0ca3ba593, (-0x12afb7baba372ef04b37cad867ba2b1323cbea5d05b0b1a38466864cc9d32dc2));
 (false, 0x12d801024879727ba748aff9d9291f7516d0094dd6f7909288c155942730bf72, (-0x2c7a3488519189094998dbec2bedc09016f33bd1cb935e7d6817c57ef1bb151), 0x75677541f4fe225e4b9f85a233222ac6d96c72d767ca7c12d66c1e76cde5bdc, 0x42277769e78efa730e361eba7aae64c0dfe14bb20c23992f8f725677b13aaeb);
 (false, 0x2cff03b756b0e5c41f60a6b9b91b97d9ad0540d758f3ced0cff3628b0a83e3b2, 0x48c72f8b15bb4a7fef42348543a20951bfdf07804bc336d28c9f7e0eebb37c54, 0x29d6b89b497181c82e6736b378e42faa103814501c4ba4cc263838acf4fa0d68, (-0x1a791d08698e56964cb85cb52b68418de75460ef75282cc64661fdc43daee04b));
 (false, 0x22673e958c1e673562ac71786bb884d96c2b41982757d275a1ecec69c9f934dd, (-0x46b505f059390b5491099b419922221148ab4ca3ee201ea73a5d87ac4f5844de), 0x18755a4620fc1bf8ffbaf88418b9a3a6eb4320a89899b76917e6fcc45a2f31f4, 0x1627644861bb3da5a96d4f8d8065b5afa18fd0e0090c777295facd832a860f96);
 (false, 0x8d5d1c800dc32d43d15055167e25801cff3b7122659e23da1334715fd3dc2ae, 0x1028ad6d6899545dcbcb13b7fe6332b78b8fe8e15565ef200b29b512683459b, 0x19cf4c5ddd63906d7e4ea60cd8112ecf0660b830cbbe828e5027aec823cea12, (-0x1176d0e87c005250b0176138493e8b652ade2aabe1b6200d087441cf1343d56));
 (false, 0x896c414dd3e0803d8a35dabc672c9541deb64be0a2485bf8436607ccf393d57, (-0x5c5cc0006d8cb24e3b57ed4301c9466fda6ca0273980ce4ccd4215e36469554), 0x18640b99b4977d4decd4db10af90119680b6e4a80e1060ef07585bc30a1c170, 0x535b3b9cb2a8d0e085f896c9a3521fbb469c9dd188c1803c015ea98c628c61);
 (false, 0x233dc8e6ea4b1280f9a1c57aaa14e3ac2719189926e064ca6e9b21e0e7c431dc, 0x186dc4a146c04f7395e531349c2d78baebb62b4f6a271300442cffd1fe17834b, 0x19aa1d7e068bda42c5adae6e2e2586f120c20ce0a4e6996f34859a263ab6828e, (-0x14395c9895565fb5a51c1d8c14273e27a4aecf4286dda77de37d2908608c578c));
 (false, 0x18e1ff19fec26b66704e65d395fb336b13e9fa00bcc14443000c2432f3fde11a, (-0x58adbf2b6d82ea7430cfe6e7b50667e1bc3ad57e9dffd4b0e896cfc339f226d0), 0xccb6a753dd81b1d0df48815183be80ca760f7d6b15434bd637300f0d54db751, 0x14c5deffc912e3d17239e8e334ee0c6a0e0557a38bb53d78a8626e3f159b39cf);
 (false, 0xa2f22ba685419e652fa540833d16692ee881ca6b7180a3cb871b33ac1590ed7, 0x465f8c203b6f84a4dbe921276aa4c6fad873f300a5e21b2cd4e63d1fca837fd, 0x224acd8f3a02e3144e05ec0272d63b24ede5ebf5d33ca5fcd739d7c59b028a6, (-0x12795a8132a3a022adb36fd0de27a8bc32600e882e7aec07fb0fcd88003b83a));
 (false, 0x4776eff38681dea6005b3ec653f20cdee4dc51a9f9812180656918e93c907f3, 0x5312759e12062408d8a752f18deee0f340f27b4640a71073fa3e83d81c5b03d, 0x6989cbac0d9e15e0d041f8b78255dd4c4d280fe65145e72c0558559d301b8c, (-0x234b943886a3d87ac4b0e24bff450e2e1a8451f439a7bcc6977d7675c7b4dee));
 (false, 0xe879c89382024ec9abe14a5fdb25aff73930d02f94c161586564731042e6240, (-0x25ecaa339dc4a618ba16522bd8ce0f53e54c26ee171256af12c59cd5bdab851d), 0x45cd1f13bc7d1003d4720e754ab2ecac0d9b25aef8354a47607300ee55785ad, 0x141e4f6b071efa5052b179b863263358432f6edd0e3459697771a3d417e2098);
 (false, 0x923a1c39eb534e5e21c8fdd5e64aed15a8a134b3d3106c008e74f5159082cb7, (-0x1e605d23bac2984ed8dcb7de95c817d2d11ae627a57ef0ff1dea588ef0eb5ca3), 0x1b9dbc0c1c450178645908b97a9a66aa7838cecd3d9068d3a40a6f3acd0137c, 0x513e0576c903c9a2ad16676cfb8f229a299662e3d27da9071f591e660c49f5e);
 (false, 0x1998226536e8378b4aa78829ae2a70367ecfeeef92b0832b00db592053517623, 0x9a5567dea766bb2fd2dc5aa4455dab4f8b67fdbb9687d1d9224f96aca88effd, 0xd8966f7d6b532015056621fb50b6af9298ebb4bb072e1f4ecaeff274ab2685f, (-0x162291816cb6370a9cbd929ef01c532c982cf93db8da0296d9d2aef987265fdb));
 (false, 0x913318719a23f5d74dbeac8e020ccf7333f4cb0b4c955e4a7d0aed61714adc4, (-0x6cdb70f15175ecdbeffb4f9287d3821bafff9ee715a72aae3e9c2ae82b6b7a4c), 0x1b3abd1697d05130bae97c3785e6c1dc983c58fa382633999e3a92162e0a044, 0x4e6e78ddee1f9e6431dbb87f0be243d20968cc1a450176b2037c5a86011c84c);
 (false, 0x71a0606656bd5d073d6dcf93c85e95ae6f6ab25db7ef1191f9cced853323de2, (-0xc66c624e218e308b5fc6c37cc5e183532ebbfbdc370ef76e6ff213276a6a094), 0x10accfe9c8091c59bacc9b7b8686354f6b7ee1a8d307d33c83edd58787af1c8, (-0x45eb2ce306138c8cd0982701de593b4db85e5eb6e4587c0cd7ef23475190cf));
 (false, 0x17b3c8d7a71d652e4a2a6a32036c7530294747b9837130cdead0a329e484a557, 0x7881415ab266832963d848ad22a4f2c51814d14fdafe80aa58740456d638178, 0xb9bff39914c79dced9fa617bd1bd9c3f22201b2e15604beeced3b04ebc782ff, (-0x3231dd9cfb531d13110100e9a02bcdace45178f320937e11db94d38bd95e6e1));
 (false, 0x19d0d0fed800dfed752986167c5f873013011269a177cac9331e51bd73d4e5ab, (-0x924bf1cdeec83f3da893cd11ba630dcdac880744000e898fda076e9dc20b14a), 0xdc59e93d94cb57a5cde278c4dc2dd2c761fb65ba36e4598d3c34fa2f8040a8b, 0xc431953fbd364c3903424154bcae653d9a3bdd08347556fe8e8e131a66843c2);
 (false, 0x266d8a1ede905128be4166cf5d7be87904123f456a04533ce315af2d4fa6bffc, 0x4129da8cab34b8d49363c399c80930eba4366ff9bcf3afdf589f4cad9b97ea8, 0x1e83fa81ac3246de2cbd7815b72299c205801c2933a82182c865be85d85e62a5, (-0x1112088b916a8db10fba26a0ef8df872652f4c0215bce3895eb308910eb07d65));
 (false, 0x1df8fcb700d2697efcbecd3051bea54b885fc00fd54077df3637bb19f7608fbb, (-0x1174c2d810add357f88f2f234a2e6ded699216772abaae0e690e216cfe82cc1d), 0x129071a71e364ad24dfecdfb9c1fe926e6e824c588b6e40930dc980c43aecae2, 0xe195dd29d438e2f206b5489f160ec2e13f1ad06b0555943682ac6d8446711e1)].
