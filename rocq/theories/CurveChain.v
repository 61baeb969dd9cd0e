(** Generated data: an addition chain from the generator G to ((n+1)/2) G and on to its double,
    each step with the slope of its line, the coordinates of its result and the quotients by the
    field prime that make the three equations of the step checkable without division.
    CurveOrder.v checks it; nothing depends on how it was produced. *)
Require Import ZArith List.
Import ListNotations.
Open Scope Z_scope.
(** D: double; A: add the base point; S: subtract it *)
Inductive step := D (l x y q1 q2 q3 : Z) | A (l x y q1 q2 q3 : Z) | S (l x y q1 q2 q3 : Z).
Definition chain : list step := [
D 0x3a2fcd28a5ba01b5ed8a1c16da45138f4df4fb7b845bbfcea5295bbfad92610 0x759ca09377679ecd535a81e83039658bf40959283187c654c5416f439403cf5 0x6f524a3400e7708d5c01a28598ad272e7455aa88778b19f93b562d7a9646c41 (-0x1187d1ebc54b986d33a220c02ae50481356d9894489cfa75dc735092a2a2a4d) 0x1a7363c6c8de85ae23f9fdbf572dd7ebaf798cbeb0ba81510607fdd0100e477 (-0x2765f8d4c01faa52de0f3b1ce8711e71c95bfc3e5541bfa7622af07dfbb7d10);
D 0x846ad5472d7b3ca867d715f4527dad78102eec7377fc5ed11f7ecea68abd73 0xa7da05a4d664859ccd6e567b935cdfbfe3018c7771cb980892ef38878ae9bc 0x584b0c2bc833a4c88d62b387e0ef868cae2eaaa288f4ca7b34c84b46ca031b6 (-0x135ce06dc5833c40c5056653cee07350843c3c1d1a5a99a47c859fbd6ee60b06) 0x88fcb10d6f108b075ee03eb064bb6f93a5718c8efb5c20cbd34d4f6239e03 0x6ed160644a4971948b755a35390d1c5b17a0eab0c2522bbf47e98b6f9ad9a4;
D 0x50ed2fb07ad55d315bb8cb383f5fce987a9b33c0c3fa82ba3234a48fbaee88b 0x6eeee2b0c71d681692559735e08a2c3ba04e7347c0c18d4d49b83bb89771591 0x72498c69f16e02231e26a6a6acaabb8714e0af1306066231dd38c233ee15216 0x6d10b1dc211d7c6e8340ed2e52134f1dfba208145da6840bc4cd1ff73309573 0x332a331f44d61fb504d2a84b08e28c4e9bf730e8576b2f15a843b84e9a35270 (-0x3f80e896f2aa28cc3bea64fb750bfc9343aa9c9746a3e873084311f603c5873);
D 0x54637faa788a588a40e8623c370334fa95ae7b2b6c180fc456e022d06651613 0xb582a82e6c8ad99e38fcbd2a4da97b37d0cdb7d776edb84a661d79ec4824ac 0x7cf4349849204906e1b19538552fcb1565171ab453694b574c87e2a35206d9c (-0x89bac4529d4697fc60f25ef4d499336805bd98e49b6a40bbeb17f86e4f35d20) 0x37a2e4e7b93d33fb59987f91488da15547b8b954e560ed016c1ceb051aef59b 0x41a852c4bb662ced4e640af7a2e6d07a6f6994e33bac2e5623e6f7ea786cf4d;
D 0x60ba7c92af60997eb362989c12a90cca002935a6253c42ee414c13822a98000 0x45f571e26cc38d3e6fdce1b659350f93e272cac9834b78eb8681f7ef89239aa 0x5abd8de04bd2c3b7890082929fcd2e1aa252e9508f39e19637456eb1d7cc493 0xb9d63bb9cc599771be77744af558effb22405d8df2bfb54c4e1f3b14391854f 0x4918ca8e8a9b7244feacddc4c07b93829ddd6e77a20740f74a51bc76edd7cfe (-0x2c4b5b1ee4240e7e441b90996ba57ed08db722f1f49bae64016647bf4ca322f);
D 0x8455f0410bbac9fe92e5b03ce4eb3e6ebbc2a141f01550e4bad934346cfc91 0x6c4d7eb804667b5c86b09dd6ad31a554a0f4798cb529eed1615c8c1666cff8e 0x605aa7ed522042afe5c9070a71cdf26510758ef847fa4600e7952ae7ec5d536 (-0x66fb537b4aa43b2401fc6ebae56a6f278114310648b4d8b4358bc86fa4f5827) 0x88d179390188e098f836341ef83131ea3228b3139725cdefeda29a3f4573f (-0x27a48bad5e813dc4f15c7e6d4b3469e2c8c23cc82ee3d7f4152b2afc291fed);
D 0x1150683174067b86adafa91a98f1dce92a6ba556638400096f94f73e328ee4 0x3455359ce0517acec33aed439350e69dd854d6c689dcce27285e5e262806abc 0x3049f60eb15d1da1c32fc196d0ca814fae84bc3a6890716edbbdbe1038e35ea (-0x11147cc17c359ab87ac076a5ab40a4979818c50cf92ba42d7748a8469ac0e81d) 0x2578e2fb573308afb4accaf7105050c701a5bfe661dadcea6bc561775138 0x7922272a6ef38bf769bb53a238e2b8b3b52d0eefa380a4aa5a31b23f0fbe8;
D 0x4713a3b0d5258f7219265ea747f8229667a64a340fb589328049d6c5d44a6d1 0x6d840e6d0ecfcbcfa83c0f704439e16c69383d93f51427feb9a4f2d21fbe075 0x58f7ce5eb6eb5bd24f70394622b1f4d2c54ebca317a3e61bf9f349dccf166cf (-0xa8f7e6b1f2dd7728fa6ea45290bd500ceb196acd0bd5021d5b8c0ba5112e1d) 0x2777cc9b964a451c7ec35c067cafb1e7a3f8b550626de4cbe65f302febf00b4 (-0x1fc0c258506ced4a3d1bc382e0157212317b580ee9fb7bd20e2544aacc4aec2);
D 0x5dbe8061a371613fadfa8f7f80698cc501e1b888f6e0f108b9b09bb1c709779 0x5433d2b22b850903b9406c82108f1b469062ee570d165de04243ff653b5aa5 0x7e5182c2cb2a253483d3392f44b365b26c18b855cccdc191f8caee7b0cce55e (-0x96c96868dcd60273dd3df19e1cd0e01787c8a619df38860a5094d647c157ebe) 0x44a7ee1384218ab4a40c977b7e044f5957225193df4e759955bbd13b24cdba2 0x4c5a40d0dae2e4b8d75f6bf3e2d5fe3de1de1e8373e924feaf7113b932ea323;
D 0x3a07a825584cbb451365659437e8c2c2181091c8fae81238f29ea4947de1614 0xf83b6c8500b2fa612860b71734a20c48b38508796d6619a89f3dffdefdd7fd 0x49ba0c82c95ac9090612f6de4b274ecc89890ae0a8d794b5b40c43ebd3cd7a9 0x71e2cefdf2c51ce16b198c4aee5e7375b22e8e3887dde9ab5d396cd7c04b3a4 0x1a4ef0d718fd4491e23d806824a1926f601851d6ccfcccc12765252bb22e449 (-0x4a5d4197c75f364156c9e334b07a28899d925104d395dfc7dbbb2ac25117e7);
D 0x9d7e0e3578c9719da06dbe4017169bd0aea7568be5c9b4405f6c8a044342ac 0x712eb6f252881cb4ec1036b0cf73bef80ea5ae1855dc6a234ae3cb7894ccb14 0x77659f98df589404dcf99257978c78afba46141808a7c93be35ebd2739cf8b1 0x5b2a6b52eda36628bfaf256f7cae236b5c2acd8a15f99a9e83cdab8e841efc 0xc1c7b6ff2727be751d23b440338e72c09aff7f35cd04d4e92747a101ca882 (-0x782bed5f31645bc7c65ac7d76a1b484b3b0365e0a29fb9ac95ba3bf39611ce);
D 0x35ba31549f136a416e9d2e35ee2d4b503f488cc911a3f00764d533afd76d1e 0x29f26828c9f9616373509c0ab067a1bbe3e4ca7440e0a238bb3f1c7e396286e 0x1ed0925b1705cbfc9c7ba9aa0b6950721e330b4ca6a06e08b3134f3c9ff31a2 (-0x125f9ebf8768240ecc6717087c6e9e7d23e350b9eeac0a81b7c012fd5b0b2935) 0x168d3fb184ad65f77e241756fd9ecf575189169a16a28f291373484b6d0ee 0x1de697b61daa1b350aba4dd921ca77fcf0ecefb8b1becde2f03b8204759321;
D 0x218025cb7ff8aaf5a2616015b8e5224069f8721a47582ea3396285d41932ff1 0x246934df71301f750403246258f6ab1dd008ec0d4c73fa10a9d119caa3bfc45 0x7ca21b02f6777dd8a7b3f9610c5a6a3efb124fa38b316aac947ff01c46c0b7d (-0x191c0296b34de385ea6eb565951c8f5104a1fdca3a2431f01c35736271ebec9) 0x8c493c8902512ee1cca896f32cdcc6df8b954716f1d8b8c71f42e6085813c0 0x172ea0ea83018564b20882fa83d37b1824eacf41195dd70f480b25c21edc7a;
D 0x649171cf4f9fbca9e227a51fee706cbaff12875e11beb96ae04fcb5dba6fc14 0x2ee775c2f50d272ff7228b888d8ac3ce9020584e0853d5d0de368f375ff1f37 0x69eda23e6290c378bab7f12f56863947f938adde17b7c71f02abcaa40b7bcb9 0xa4c5fa7836995a3b7d97bfd46b607b80ca12cdd8ccb37a3959e3bee7e6a23bc 0x4f03e7182b4b5462bd415d76f7e5b72ce9e3197da5cc855046168514fb049cf (-0x83e8f0bb4bcdd0c0d97bc38183da658bd20f653b0266e54aa8fb8fb5b4bb1e);
D 0x5cee80133ad55bec6900d79e9c1704ab2fe791b49557331262b9acbd29cf2da 0x54eb74bc28250b455c80a3971368b3e76ceab2db0d9267284cbb21b75d33a23 0x1940a95bde788e605bc8be468688ed16b9cc386828ad4ef181519f7d4ac800 0x66405b5955a78e7dd206a1c7a53cdd09f83242ef3eaa33ac0e3fdb0b31215a0 0x437894806c3bf5909816fb5322430876b5f511fa9be66c63306c860263f6913 (-0x1b99b4bae91e65b28f4df5b199de16313c0c01c6400a4681fe55eaa19e489b1);
D 0x1bcfbe680a4860b42b09ddccda986fad6d380003c5c0b0b14c4985676451774 0x13e78f0ce9c7394404c916a458d885df19b2178ca79e0413423185b8714c19f 0x1474e3fdc4b72def18d6617f9f831c1f288fee826265a6760b2ce2f01673d73 (-0xa8549b068d6fdac55182c5d7039dd48a33db07938a79125ee5596afd6fc625c) 0x60af57ed814fdef87212c85172980e86b4c1324aae7ded84cec9a223f2d6ab 0xe20577709e2761f24f47d63f724896dcfcf254a4f7ca572963cad82004725d;
D 0x4b5198d801d26313ae6918a26d6b709dc36ff33bdd24561081c152478bf5925 0x5e11d8e11f8a507a6430c973b632fafb6830ec3fa4a69e87cc22f1e5e55b4b4 0x2dd508fdf02028e3d863bd182f72e397349370daddf3a0cc04d426effba5ccd 0xec9ebdc409f7cd07337b4cb074eed11f2945683dab42ddbf5639c6225056fa 0x2c51d3214a074adc18cf032427809a5bcc7ffb8e3cab60e7e74b72b67c18767 (-0x2ba40e946fe12601197b16ab8198ef6b43213ed2b7fe8f5168c0af7e6b20949);
D 0x3d19d2cb2976c82c34f7066d648a4606371f8deec731a013d6b0a729a54ad0e 0x1c3c76d8ebf32601d696802e37b88ecf7f5bc9176ce7d72883c31873a021f53 0x1e7ce448f6712fa3eb7751febabf45d6f90b02f7d71c78fe34aa8eab335fabd (-0xa3a5205905ced7d5e318d77aebecbc4d7bdb9dd776c85f3b8b08073a8e9a345) 0x1d2aa21f56054b75ac2a2081246827ee6bbbd4ea0c7657641eca4eae77e6409 0x1f6cf8cfa0c27c37f0bbd4a1fb14dfb76c1ad729987d73b672698f2236860c4;
D 0x3acec33d2f9c565eaa6ba5bd83e9d9b05d4c1102e09bf9be079fd30721d865b 0x23f2feda2f34e640a61ee661dea73bce006837e4737d7f7f22227bbab6198c4 0x5e433f62804e13a4a1c12cd0945274c4a3200693ed213a6b05fd2d7789f5ba5 0x953fc3654a2ff5c76093a878f520378b4fea9d3102ef02fa5cbfa2b64c7fa2 0x1b04aeed09e377922b12b0d6e7f3c50e3d33f4349b5ff1698ec0466a3bb8cef (-0x38b2b27378f37911b8728a1888169d51a9187c762e3970b90a41d38623a78d);
D 0xe65d9cead0c63bb73a8854dcefe8ffecc78431eceb1ace79419ef9a2157cb7 0x673626fd646f2d717ccbb41fbaf33724d5bf293b70a57c552f9de62050f9e88 0xedc1d923a11f4b216040caee5e8cb356fb1071592998287c7f74fdd9bcedd2 (-0x915593ce4fad11c237e3cab46d003586e5414e8f797d61f397aee43565244b) 0x19e98b062a3ddcee017029727c2274486c55a96b1f911c560d85c9f2f4fac1 (-0x790ddd5faa9ef8fb1d4c73b6588513f944a2aa1733da96e0877ac039a15893);
D 0x14acc6b688bbb29ca704985f7f1f3dadd0c637cd96bdce57f0a5b4283de31a 0x1ebd216f90dc206973d996aedd435fd098837759b7e8ffb77d2edb29c74eb98 0x5c59ad643813bc1e744c0f52b193147cceb980657085f09cf324359349b4d5d (-0xf95eea8b356b22ca5d57c3fc01d51b9bdf7831c6abe2cdea856b26f941dbe19) 0x356e75049c7db8bf8ef42557a03d41a21b007239e15fc3139c077d46f5fc 0xbb4bc002db96c4ffd2923e03185cc6efa21e51037b93cd2ecdccce138c131;
D 0x39df1b2ab1284528a1686b546f1566e5253b11f3dc03b29b1b6e9a392f59d3c 0x7f639e76827b3469c22d9454286328ccd42953d52d63c1206cc91451f7dccc6 0x49c0bf94a3b8da92121959f8bee02ef636a35bb8c2aa9ceaef228a2efb5a0d0 0x3d5c90b5a47685089675ac435ac79a13cee102a90cfb50cee55548e7e0116d7 0x1a2a3912b44d36abc466125fc003847e08a33a16c5a6bdf243818bc6d03021a (-0x2bb29a3e4476e8120fe346f29debd04410882abe5d1ddef9c3852e50984eaf5);
D 0x5ebf4256f8b984818bb7cf95544178a345f205a630f6f51e3b42aee5c5112ef 0x127f005d4ee934961565757a64b58782427cac01272fa42b48f404ff4a7e4ab 0x582a64a597bf6f57c335a12f38de51b956e38e6b8a3c6a38043cef74c62b270 (-0x10f2872e01bfe6f8e50715ccad6fefb7d3155db98dadf8028d68e33a5018f70d) 0x46220737db40af481cc32f41c60fe9e178e82ca31b878a81a2f9cd29100fcea 0x509a99ae4a32280d22de9c9c1f99c51b29cf9f354321019af9f7e7df07843f5;
D 0x7a15aadbee2942eabecfe6cebd523e36d86e212c0f31b5265fbf9764866770a 0x314c8986b9a3fca1998ab928443205e5e1d387f373c55e67b18fef00f647e90 0x6772826cd306607f55f25bea21e93fc8438fbe216887bbe89a12135a768b924 0xa02a06cd5e0a20585c62377c7de01c9480ab43138b12b51690b83f698c8f214 0x7471515e323a76a24a08084a3bf0e1d3c744a6415c4365593e57da0ba9e047e (-0x1d611d91e1a950a774d4a1e6299a36ecadaefdd442c7a5acf582dd763f0e186);
D 0x548ff03b566d641ac117bbf534258bc1bc379c1b3f71b7a727bde35e1a6c4c5 0x1e0819c70144a3a506a8aa73468fb13384e3ccb5cef5670e460e939015efd9e 0xe72af7fa5c64fa0f29ec7d5b82fd6cd9c59e407f511d4e9541d1b20d2bcb4b 0x4fb89e2a74d809f4d39666beaf0cdc7d24398a14677b321af419a3d6825de67 0x37dd8d2a68e34ef43102965eab55624d8b69b06ecd3f3bb21f4d0fef09244db 0xcba93f3e943fb4f584af2c48b2aaf9a971e5a7078ef0bc2aa765b29b4cfdcb;
D 0x75d59af6b110037aa51e95459f7bd41905a5a1bc08bc04a4d82a72c86e2286a 0x19e92779f99c6abe874c3625238633c8038d32cef44af12fe8772979a3a97e1 0x260580721cffa7231e084c8bdde61af63d0ef98b26bafb6174a956d234d3fcf 0x5767bb782fcf0584873fad6e09b55cb131db685b680aa98b3ed8baa65ac18f 0x6c79e3c17452044159e03ff139237a16842c31f70df2b0dbde87580bc90b8c7 0x3cb29f6c9e02a33e6b925a96bb5964a9410b5a0a7a1397ac1bd2b1f3589d28;
D 0x508f63d22c5d0aa61274bc847193d516284654202de029bc04eca1c885344a2 0x3adc781ba441ea2b97d0098a37f55707413e81ac9f79cca03ac4953422e88b6 0x7e34cb5375d4d90ad6009ba047a1ecff928749d6b3d7a099b3f52f1bcdae971 0x201fdbcec5158751c6ae3a6153d0b74e87aff475da46f1c7df65f5767b71eb8 0x32b3dd680ee7e2813110bbc7e2b28e00046dea9dfcfad3e551c10ef3ccebe0c (-0x14bcfbeb6a3cfed2575f4442387442c28ff8bbd3f009ceb08911910318e240a);
D 0x55de0d8b0c94f8e8a57e5ab0ac44c5689fdd23ff2959fafbfcffeb612a738c3 0x7a5c808c7164f5c3ccd8f01a19a3f0d8164b45642282eab138068062c096310 0x362199da5e186b360510379dd887e316379df67c0c0415ff5361f5635219db5 0x5820261df908f7d7cd49fcae3e201bf9d939969a0884ad804820b1c29d16df9 0x399a6b33a878547591fe87e96fd3d2eed01a491b9bdebfe06449fcdd699700d (-0x2a992e6187ff95c4cd196f61b33c5a8b35a772c50d83476bbea70d2b82a89b4);
D 0x7506f718e8ed5e23c52cd755fcf6b63df18a9b343a514cbe7df7e3a00b61a15 0x2620b9f5ad6d92d3dfe7a9c1b44136ab811a76949236bb8ff9a5055d37263b6 0x37a656f8d5b27ba46d908b8c67ac594d0f2ddb96c77d2c952eb42295a2eb6c0 (-0xfbee7646a98e5854118806af0baf232c091f2c7ce600c151fe0c8b10f777f4f) 0x6afebc1a9129ed43f2b4453c75c072ab981b8b03911e269c42bdeaaecff1be3 0x4d0338eedbe60662d08ff4a76e27b9416c5d646071bbf2b98cf9ab494fdc1ed;
D 0x783958429476585cb1ba39682d77cdb897d6f024e5d5930576adc64ae1d0349 0x5b6ba468f5bf6c90ac31863929deb6823e46a7fe54cecb918e0c9bb43deb161 0x538f6896d4c0d601d8dcd43e48a3c93495b5dc7145a9831b93e931f85b08d1 0x46775b9eea970cd34147a070e42f6495d0b7e2f16f437be319639b003a1e953 0x70eb9f2dae85cce90ad5e22473962ec52fa461f8e155451991a12620fd15204 (-0x320e1be7b4c2fa42ae6f31c2474c61857dde1e3c9c4ffa86cc69d74acb3e654);
D 0x37ead7728de7f127d5a9d54d31ed1182d8798878c7b80438114e39ddf0bbabb 0x1d71873df0eca1b955b32639af6471260c0f1708d5d55a9e188c9afc9d1fb0c 0xe3418a4185a2694f1d153f298e799735dc64b85d6a9d157c8f7eb422460631 (-0xbf521b289a96cb0e2a5484561feb1d856a9b08c2feafb592afea566b1a53eee) 0x186d8003976d66509d2d24f1849987a4e197713906f95b5b3cdbe130cb6e6cb 0x1b132e17632d72fa680c0fbd20ec17419beb96065ae85edf81979aa29c8e315;
D 0x2b4d5ccebaad810dfdeb553227f7e270ec2b553b30fb9934465f1bbd019424e 0x3368873d2c5ca0673b9b17948f9125f80936f0604d50d5d5c7dc4df59f8f291 0x7815aa21eb2464cb1aeadcde45636527b04f1e71ef40c9d6fcb1d4f2e6276ab (-0xab5561791f529095f0d61b760e9b42c4f35fed3116b3dd27368fd253ea8fd5) 0xea6291cd16fa590e294eb6ec3c9a675c070fd5a16defa3dee36ff1d6cb671b (-0x76e4082bf0d845432d6e53f5e951753b1d651a2126b009af7a27bc84553162);
D 0x73523101072ebf48e8b4fbbfc471bbb13f13ba015d2f04d348b5d224e3f6776 0x3d63afcb7431756818c0bc244feafd7d1c22e0ce2e36c3dad30f6b914da3e97 0x628c9dff641df037d509ec07f51c00b9020a33a7d6efd36186f200904a5c488 0x9a7042063d1e38a8f6d7eab1c9ac811bb272c9df4253952db0a526b88199d40 0x67e5e4d4b4fbfc41369f158b5281936e892b5745618a258d5e569a0351806ab (-0x8fe0f2809bb65a4f991313afdd6a55ed03861ad505ec5c9933bb4c85f1aff7);
D 0x71af81351e8329350437541545292fd5ea7604a52b3bb6cf4727cbf853ca01f 0x336b34722ac081c27b0651b72e66adc760442231e0f552058827462fa997f09 0x7e1aa658d238fba00c3e8404b5990fc77aa92c6f7f2dd4e2fc7494d76f1cff6 0x56ba92d9cc4cbb601f289cb24ae0ae0d392e6420b204b2898bffc9b042321bc 0x64f8d0c5998c2a1b62a091f7717b793a37fdc4a4df08a20d1a4a1288460c78a 0x8db08ae067ba2dba1dcf2ec878cbb23c87df0e32d7add8ea86ad22d5405db4;
D 0xa22e1f2c2bc09c5cf1c0145d3673f0d9d2d2ddc771d8a66b6081cc6fe7522b 0x5abe3382cc327315b2724fb1c26815acede23963b5b26f732f857021ca4bc0a 0x6f575b1ede70b7a57ec1946ae0a2c3548b174d0e5e700a9eda2df6538ef3100 (-0x29fe7163f5f8facf12027a6fc09e92f0dee4f86f5ec56e958f8c21a82fa5650) 0xcd7ccf863e1670f66ca0083a2b54d67875130e7d246c358a775069c21d91d (-0x31d33638620cfcff26cdce279fa8e135b53917d3a2d0fe253ae7b87c359221);
D 0xe0ad92f0c1f4022b5f013946ca66fda01808dce7e17eb0f02ed3700a50ba8a 0x1dddd93c3f4dfb800a6ea9e843ba3bbf56837799612f14dbb7ffe9c69329f60 0x15fc5b0e92bc6d09872f98319cf41f05422b05f02d78e62ffc9fd7f4461e403 (-0xa88fbdc7c8e1f8eaf6ad0f77e449eb18cfa194e6136c833dae378b35fb73d2d) 0x18a606daa82514b34bab6c883ca275c4916a4f4aa80b53c2b4702743b0baf0 0x6adb2b17e1ca4efbd23a6647399113156c529adac8a1d0988fdf76c025e2a1;
D 0xdceb9aab6442461f9855153d6dd0aedcf159a7dfd415bdc8904526903e129e 0x3e8fbe62b365ecefae85a43947606322326e3e77fac2cefef598a7fd5dc556d 0x5957dbf6225e9eff2c5224d25277b30610b9957283d323704bc4406ba66f345 (-0x1029ce467b5d5783993f3d5851dd4db75a942faf30564b942668bb62fcf4c4d) 0x17d4b9557d0dd3ff97f6189aae459d0e1e0a7cb8046c3d05230f2e1da10557 (-0x386deff69b18982aafadc463b804b7b1e2eec2b91b22108d66e3f6657a1d4e);
D 0x640c5da11082ee482c856d366f31389cdbc73b6eca797f1600086dae7b6a681 0x3865ab971c1bc47c82054c4f221150e987f9bf58331966363173b72113e4278 0x40712d8b3a473bf3215e12d9a3361c5d36bf80c4f3a1ca6a669418accb6dc58 0x2feee549ff0b5716cf7b98f277ccf5c6ac981d6faf48b1bb874ada0d5cdf64e 0x4e33537d7c7c82e113c8f8c2ab05d27eadedf98c4e89f42295372103cc09faf 0x4d1772324a73f11f38ec4deef20f0cd53d69b8f9ce66c6ae440bfb9a029bd8;
D 0x67671b8a0b43a8b290e6cfc3d3b7de9889d2c378ea3a1f3531565dc7032a60b 0x567537a980ba354c522b9ca90a51d682e832f2eac2af5406306d1a8a3ab5c19 0x1913879fece1bd4a06576368038b50b36eec2e9593f231dfb5db77d5cc29da7 0x1d92227a612fa820788d5eaa1cb00c8e9246900547fd416c38c3e5d35b2c6cf 0x538843608237d552351257acccc305d9bb751c777e7db2e35d723aa21d66370 (-0x1848b9b136b894eb8a901971847ed1b9657719b0c23057c6145b034a439f9ea);
D 0x57c4ec72402fb86c4e98f125d9c03793d4744678faf930a28169a14d6735a7b 0x2089dec6e0b3a4456e3a13744599039c80e33ed92f35b1e240d8e1be2683f1d 0x35c1761daab4ab7f1293a566b175e7a7c2986e86f63618fc9b4c1f160778942 (-0x8cce159955546af3515f8ba7086d4e2d2931ed04804fcd037b95a2f2fb104da) 0x3c2ee06121eb2302902b7ac0a5c54838f1aaf88c92309cc118ffd0ae4bdbfca 0x24f8ea64305047c0b475a6038244fb704e7ca9d143a1dc0768f3e3463695e2b;
D 0x4d55a78812870d19d9dd46794dff35284abb4c38c4ae6bf32b7bfc3591a2367 0x14fc1abafb203a656a536b9b3eb9f19bdf57253508f44e9c754f35fa0067b36 0x47ef4a2ff9268916204d854c546564deeaceaa7c8fa71de6d4f34bd360c74c6 0x282428182a3ead616f82aac6717b2745b774fb87d8e21110c4f3ade73c2a340 0x2eb946e11248b7bcfe96c9fdf3ab8aa20567af69d7099c4a77ac09b6efa5a01 0x6fb0332961513f5a88ffb3e47e43f7a7ac4829b1d16f48285f5521b11068e9;
D 0x47b4b6895b5a49dc7c93338e7351b22abe1fdd00d1be7c87f64b5863f86514 0x6f1da4b96d7276fcdc69aea9c47eca2fa85698193bbb7fcebfd74fa9b8e8bf0 0xa3b8948154ec98b4415301a02f8007c4b46eca22e2eef781b21765c56ba997 (-0x548a163911071d550542cbff3b62e053d14a109a4eb4f202a7fffadbc8533d) 0x282b79a2c7f846b98a72f03ce883983922c6681f65ea54cd1e9379b0d4734 (-0x327dda3d99a9496b833c7dd7e3e9588b898c1f4e1929c9411f19b372e2cee5);
D 0x3d86ba2da9116ed9a4971f385d65f1ea315e7c1e69a99ef5935324cf3bd02c2 0x6b5003b1c12d9ff27f2d32df6ae31bd96941c622de378cc9f213c397185ff18 0x650d1f2a71ee45b4ea7d0cf3573fef1b87a75495ea49b242a0410ef81664b3 (-0x1178a0868be633de8f02e66b6be3282a53a449bd121891e4305798d287721e25) 0x1d92f742638b5d8d19fdbb8d044dfaca3442488fb7c9ffb0695a3cab5d8840c 0x1d3ff8a6570ecc577d16149db364b3621436c28558a8f1db485262318a5d66;
D 0x283bff4a53b3c5338d65fa90c110e6b8eb5bf50ea97e9ae25608bf3a715b99f 0x1e5d4cd8110295ecc3c7084b27d07e235c261a23aa5c44a19d33f0811533265 0x7ae2ce1c8581747a32fa838a7195c71a4d0636ca98544bdc466a4584b2fc576 (-0x109ef79aad971a369eb1a21ef84cb300a661e5f4c759055d45fb520a1ea8aa67) 0xca59badc9ffd588684cd0879e19c0b6ed2502b6e1d238c0d08b064784e002c 0x182fea7c864d7e1e0204108dc0b345579c2114c50584ceda2ad9164c1e35404;
D 0x6ba99583023f3e6ab2c3ed7cd2adb90d3b116ca5c4fe37305bf53abe3bcf9a3 0x5760e8cbf8630eb7a9d52b73a5f3bd4a776017c743f35e34fa8c40b8239b9c5 0x5fad772c47103b736320791f59edb01646562f4259126e369304b3dcb1b49f3 0xb91cce7e26b1f8e98b2224761d779b932fbe75929c8032bea5d748e92082cb8 0x5a8e66a4845731ec9cd3c49b878b31b5bbca11cbc4abacdeed89ddd07f65f3a (-0x2ff48dba59ade2ec21af2b179c134d96e7d9fa8e94646f5e70eda0cbd3fa189);
D 0x2ee87c5fe946bce385b45db6a2801e5e55efe195b289c1bee540e694225ebf1 0x22a5c2a40740508212995a205562adf89ac20bf9ab12f46c9a418676f8d785 0x3b70ec1b3e033f9bc3aee2ea41918204a060a43e153c78047f6b6bb3727036b (-0x6cd1d515104a7637d4ac6ba7719149816fd4923e70f47847915c343ce359746) 0x1130bfa8443293e2b563ef29ff08aa13e26e6db87959835603db15ad5b20dd2 0x1f3a6035b53cb6433b938fea888599a916518d0419d7d3e726fa59058c370e2;
D 0x58c332af02b0af9e8aa4e7e3ef43f8e3fbca74878bea4df43ef790674c85ff2 0x46a286d50e2d558f8e6997cf34f71ae8e372b78be085d12641bb40ddee1c87e 0x7b841be93dfce129ac312ff31e658280ebbe67cc1f08385f6230016da482945 0x52546d156bafc7f5063dba3b01ce99e22bfc2870c35d39243a6be8ee019df00 0x3d8d8f5d2500ccb1ad4312921b225a29944902d5e44bf8bade940069142093c (-0x2f7b0782fc0a4100f9b332aae9a77f3a09185d0056394f4c1a94c64d3975f12);
D 0x4e46ba4071c6dcfd157c1d46ad20456c9e5c52ed2672fcd3306cf0439acb01a 0x1764f461a63b29fcd2d105dca1f4e643cbb3023024f18007eaf09318fb9cba6 0xe2ba8701be4db3ebda7fdfaff88a85709ae386f62d648617943492a3b12669 0x2221cc7278f7fea9155f8396fbae172b2f0a4d09be2a64b78e0014e069be7f7 0x2fde5a13502a398c8cbe310e06369cfd18e50bfb05d1b18757f766b62966602 0x1ce39fa7ac0b179762e39e5b02c8112cc4034401a6d834755914dac030ade42;
D 0x4bda97a4f232ed9c7c4fc1f821a77b7da1b26b3acc8d5ce3e9447eead4aac0 0x3bfec163195899184ac108a5923e81387c28ddcd027e4b01dba71d65620c137 0x72634dc7b798cc2f1f103a3bc64ebfcf4a3863a79b5550733e2b19f90437713 (-0xbc70d5d7e59402e70e56f5d183ff538cd705a5f5cd3128f718015de120fd6d) 0x2cf39f028954ab8bce69be9d7421c8c33fc9a2ffc6eeb31df0998ca4f377d (-0x15b09f6c9a130451c94bd5c2cb9f2ed9f13e13085542598131989f4653143c);
D 0x18cb378be58d6e37bef9e1165ab54f444de7e88ce40a0fb5ff561879d2e9962 0x248077d9c3540c1564c226fd61e7bdb3c794fe61725be417201359eae9d5cc3 0x33bfde0bf3ab92fe3c144682cfce5e8b2a722dbd9fcf1e88542981d82ea87fb (-0x280c0c830765ee926bdec3dc8c1827930bf796fff234a3536c586f049ec0ce8) 0x4cd7776bdebf81001618c80ecaf65bb84d68a5a4093c871c0220ae543f6a53 0x48cfa4450ce089f575cf1b35ffe9242db6418267d4f1dafadaa211c4ffc95a;
D 0x271ec2ec6c05a95603c4ed869e6e0099e956383e76164c95bcea2cd4b6a7698 0x3c83f880a992f64ff80d057246cd0769c02ca74578a073a40b590d1177dada3 0x2d93b4724609da9594a6365c8cc0e65dea0f69e89716b68a3d1e0b59e12c9a5 0x677dcc3d2b4da586874ab625f48f87c571e02409f89e2024a85076358a874 0xbf4c62c997c71de3bcf5ce34e793c4b6ef65d7a0bafeae64b9e12508181317 (-0x756d696aafb4f31a0c9df8e72f4e26cbbe4242a6c2dc9530db830be83496a0);
D 0x2b622ddab27a83fc4ec81447c5ba96f1e73a55d7ae64e82a753dad1c7e0a19e 0x5d44e503cf76240b41c428b6b30a8daa4d46cc7985730119440dc6c4f3fe6a0 0x7330a9f00111e728c95c2f8ee532a343985e7117cb9314fcfdc1e9c4d29505e (-0x36ef9b0acb34ec28aecd3429c32004e8692ab8c4fc8e0556d343a58cb48afb0) 0xeb4421d3738d74f6f36c114d1e92e3c3faee99ecf5d0c966dffe4c604cdb9e (-0xb19eee4ec87e0708bc2b05865f75bde62a5ce204ed53a3dd7b03fb03526329);
D 0x73084ef956c68959d516abefb42aecbf3f9b37ad0bc1ef86de4530d57eafe14 0x1d22679b9307937af3acd179df25622de729f4e8ee72d61b1f9dbc37b1994e4 0x3f9e1d314e66d2e7b6f8203d9042dc8198a2f44305d0c8e3bc3baf4e169b5c8 0x3279ff92ec17dc05227de39af6b6cf4c02dcc889591687fc8eed5ea23b6aaf 0x6760ee7217d15e38b6cc870c7e30c2cc591ed0ac037c7e12df4c1d2f7224f6c 0x39a326656fcd3c57167ab2aac898eda45536e273145aeeb18e0c177035be48a;
D 0x59673b5243fa2709f08c27d6d6c55240232b45854455dd561d2c8d2dbf85ae8 0x385cea8d27ed3746fac5e41095d4778f133bf237ad74d6dac6a174f965d1247 0xb01409818dffe6ec05505cbd69b35cfd2dcfa8268d8fcd562d03fb71a72772 0x44f99d717e0a3af333f26d13a54ea583b863f97a7deebed929bd75ebd88d94f 0x3e71e1bffa6b4fe5cd1b493f173dc96a52e1dbb07eb6b9992c4b242a537b631 (-0x1304a4bfd03a910aa2d162123b8e552302ff0d167e10565fd2b5059eb374cf2);
D 0x33f4e931f4a16aebcae2522df2da81d8ff079351a3d13a565527e3901c9b421 0xddb2b1893edd40ca86d6070092f7d0c0eeb432391bb3a1f4656efa6cf93239 0x69cfbf9b946506b5f65a05160ad992485398e40f19c3d3dae9b370c4ee46c8c (-0x418595b2750ff4f3aed3ff2ce7ee4c74d62d0f0a48e81b8204989054517b3b0) 0x1516fe6e863d3a898025abd23b0744b210ac5d5b1d941da7b10476d02dd157a 0x1141070e2e9c4fec0f1456c011179f0c1e3238d84a945aa24340375c7dc25d0;
A 0x4e7c5f0eddada3dd3cfd55fb55d44ece4ab37ba214453711b399023e642c9d1 0x4c55d9118519cbb4ce5a86e5258c2b7b10c53c7abf2578c283b09bf867b9f34 0x2d1ce1c55ff4cde0e8a33b18525b8ba0cacd3b7d0f3808d926728efa0326ed6 (-0xa7a200bc89ec165597d30f8c29f9eb3803fe346379adb9094fecc2ebff0cce) 0x30200cb2919132849802b47eb07c33713f04ffbd06c93d78369acf07e253b6a (-0x264f77428adec99525be2243d0ea030753197250ddbab70dbab53c7c4d8e74d);
D 0x1dfae3d155e3ae330d95cc67728c8852d910a59c42f0d4259bf02568f3ea679 0x2d7399f8756d24c9a042fae18595e5e952a38f46133ea62d1d433f84f0f3b3f 0x4e1a480f5f0ce269e9fc2e0560e16fadd0dffabc661f5f42fb4d7508d71839e (-0x7370925442348111549fe1cbf00cb3b0ae41d6d3d73d37e803d638ed1da9965) 0x7059afe5a1c7f3ef0af80861dd12d2d9b138db95544da6f11c8324e0d6ab8a 0x73bcb26a88a60da1eb210b9d46cf1945e5426e0dd9ec85094faf3d5dbe2a59;
D 0x45c1118665cf131b03a7e4b81b80874001dc6db39d46e1584f34614ca99c179 0x2f3ed823d064df96ccea8a75b1acdb67fb2d559500cb7b3203654136e98bffb 0x59485e4dcaeb8a153262ece04a38663451b42c4a3e336b92ac5f8612e2a7551 0x24b4e0569c90df2ac6533e37cbaaa1a5ea010b008ea182a3d254ae4e5565ad8 0x26034a1bc17484e67207d497d185b341f92158d2f07bd47ae02ac8fbc2274b8 (-0xfa4435fcdcd1b19dd0c48cb76f4aded14123cb3d478d8f7a691e6fd0971cb);
D 0x628d03f789b84466fce10a6b053957def64b105b97f5cc05ff1c6357246a566 0x1a175813aa32fa5a852104afe3281bab8f25c77f755ef73339b2ab54eac5599 0x357afe0366be0ebc0a7f1340ccb49f93f2dc12ac51be57d86d1d5576c35b4c7 0x552ab8a043d4aef0d6051d8b2e729a9d47f72a8398905d6b2c39c0b17426640 0x4be0896dc85d0b3de383fb78d107277d81807b7958659d97621702d8ac6cf15 0x10498c374504818c5021127c0ef2e70fe98a2fb5579d352ca542caa392f62f4;
D 0xa1f1ca38afffde63b7f4fddf36f550fed27731b15b38c747444460d4a4bd64 0x31f76c61c6ef272cd0f736ff2215565042520059cc6f26c5331778f5303d573 0x440ce3c54dd5dff2433ab2bb47d10fafba05a52cd37e95e3113e6dd389e50be (-0x77f48eb9837c53f7839a9e99303ac629545aada0d4c6d91b797c060cc9cedc) 0xcce4097357b16ddb6d7de787a41e581f0360a28474e4f0b84a1b6e3e04e6b (-0x1e34f328ae1f0798bb9ebbc1ec30fdc50349862dc9d17e1749ce41600de8ad);
A 0x246cac6573456d4c0c7fddac014c37f480f5ddd0e5446c71c58b711e4dfcb38 0x41c0017c3fde128c97345b8117da9e054cd6b39c039af86e1c5daa1546a4168 0x1edd669886153bb9ae6f4a90ad6dbf6ea9b1b4338b53d3c90002b51e7227c91 0x569db519e81a44f2f8ad5a6e024ce87af07076ee9a681ae3dccab8d6ffcb59 0xa5d7d3ce43a88c017cea6ba0de97d78ef0a0b39300ba04aaf8e352fc2ff59b (-0x47dd06f4b313ab4ce8b729a4a3a114c59b4d649fa3faa12938c3dee42eb1e7);
D 0x6e091b3493a66a585aa173c381a8b97f3e5fb4e847f6e6e94175a3fb83a7d89 0x368da1f7cb32fd37d9b74d7a0b749d80a699a1efa8d85d4e5d2e804f794fdb2 0x6a0e56bdc3e3b6cf6fd7981b35668adc8c57779d7da707d59bc3978b93884f7 (-0x304177fc9a9cd443982802c06f165af5891051859d166ff7c5bf8137e3f018f) 0x5e97a76836f30d48a45342dc6791057db6523f6f55a51e79ee1a1f86f3992cf 0x9a01601c51a6106ca0b402e1030d18a03561c9ba29d9970587c0fd571218de;
D 0x6ec263fca8734e1dc0465fcb85e1b4aa83feab645719ce374f59f44bc371c3 0x1fc8fbe7f61b712513e60dc95b04e23b0d6b10c879f2c753c34427456680479 0xbfcf99bae211eadf0ead3e316f9f1f92d57bc7ba83fb014f148545c6abe454 (-0x3a47abbe439ab680f4df53ed83a715903bf3534ce2b4ad86f4991320be55103) 0x5fd74311a57f9246c3c1f3f7171573f36e624e5837705609679187e0dbaac 0x13b3928a54acfe696769a5ff8f73d79c89b1c6532029c47798832aa8ca9620;
D 0x643e08463fcee9c281d2e69056205f9d5a77f0c471ec8072731f013a550d80c 0x769b97fd91f696d749a0b52bc0163d750ef8f0e9468a1d9f977eace05144063 0x299be06bfdfdd1043ac608f99c6f3d6419a80f34e1ee4ac0c21f71acbc95777 (-0x4e6dc2aa8ca8a814c816622f6c1f019acd97e3b514d01bb25c1abf1d40dbb4) 0x4e810afdc84a0b935466ead52d506653722e306c8305823748f721883eff73b (-0x43fe9d914c716aed1250ac2a44814cfb1b3746dd829d2a546c776c4a0357ac3);
D 0x69c70d4f6483dac7b43fe77b67ba182b8105452adee58b202d24ed106bf3e07 0x39b163998c3804bf6c6bb22e3b894e3b78098a4859d77fb54b14ac75826ab37 0x55744e4f9a60663bc053000cce57022873c38477aa592224bd3a4a38807214a (-0x104f1b294b74cbaf1cfb41899cb615f8de81daef3148f45508f1dd51360a865a) 0x5769c761a5272ddb5206cbc610e373add2ce878a47a6f8f2617f0d08f2a3834 0x3256d96d11eb78c2507047dbf020f081ce057d5f9066eec18c529ff44a34373;
D 0x78f4a6b528b8f3a87fc6c066d39deda2be74a4cc16614ca6c37393d2ffd70e2 0x5503ed9ca78af9b71645175967c2464c3888cf1894cd96361488bfb302bd384 0x5492c8beb5dce5b67f3e82646195970efc345683692a8ef708835a9c96cc34d 0x537de537d63f1ff83ec45ba530aa3a07742f002090976812868502a1d77f534 0x724c8c301824eb0eef54afc78b9c763ea04da64bebe6f71ea7c58856c015d92 (-0x19d19a4fb5ee5132898dd1ca0cdafc1a174452d90887034bf0e476c3ebc2891);
D 0x174945bfaf3c3b2866597fa8b77665901a4c2452d064ef226424a0930632078 0x527e665b9296b917428390b684781ee4268e0942766dd977f52ff20f4e759de 0x153e4761f52e5e909c4e5c3fd1ec722493af28adf88c0f08b5d40608e9aab5c (-0x8aa0135bafe96162cdbf16d17029a9602ff355f1e46ab54f69e26b0c2f83c01) 0x43c7f02979f4de7d5bdeb7805a91c48685d6495b55a38fdadee3e7cbaf375a 0x756fd4967e7dfe4232af7035dc2d00e665ffeb47a93bee5afdcca2a785727;
D 0x77c52f0dcd1dd4669a79db42351f29bd54da8f2b345bf92736e938033bc62d5 0x6a36463a69a3bbea84eee4d7021940026ddd79dd2ab8ca78964be1e943be083 0x4ffae64fa2be1af438d6f34df9439934be991134bd3bc56202552ba2a471f2d (-0x77be0fd94f4afc2fc156c88831912ad259b46274df2aa7822808a596adcbe75) 0x7011d340912af9f147e93b26aac400bf6103b6767577b6be55950a1aef530fa (-0x16317bd7cbc7a59f60ef89b14eb2526f4cf0430898aacc3cddc7d8465ecfbd2);
D 0x31cb888a7c1fd8ddc99bad40a5f33a95af3aac727caac1d8536689386355c42 0x2bdaf154766e50fb8ea8d4c58a5ebca8ec98ce7fc26c980ed159ef3d521b62f 0x6aa3c214adf19beca2854b12096ab34477afa478eb0e69adf6c7d2d1f7cf172 (-0xca2b7f32bd9f6d23a2243d71beb323255fe99cd99db90b7e85e4ac13c201de8) 0x135f182daff0f47c4da3f018e165540c2236ac7c121f6924292604f6efa09cf 0x18421ddd2cee01c9fa6fa6d8ef229d4856a816fe1bbba167ed9469a1d950909;
D 0x290d8013667cb788c44d09f91bcc829d8535ce5aa85429083b74f0b36dab5de 0x9e31190c83bd8dd266e532c86ac98a5cd7d62f42a6c85ad2392be3686ca36b 0x3d3ca80686991ccb86e32679a385010d9704114bddef3ab37929531af88ea73 0x1753b512d85c7f9541169af98618fcbbb1943da48875bde4fef5ebe88f75fd4 0xd2aa778f1bf86b7190c9c42d93c52466cb4b06a61ee58d49cb3adcd49b9cbb 0xae4fad66d6d5fe67f4104813c36459d7cf83c0a93ced4dc720614ecf2cfe13;
D 0x57e7d6454b090eac61e46478957b6c59f9aece434e536bbb6e433034f72eb3a 0x3f0343a177cb5f06b9356a97e173b931dc3057de2853d90daeab9ea52f4b335 0x74d1bec9599611663c1d888c854e73d7ad9891a472a402f6295f100e70fa897 0x51d1c482714584857fca89226a6ddb4391cbf32b5015c2a1ef85c35011911f0 0x3c5ecb2efacafc8c5ca4e01cedea33c327f40ea28188d51b705ae6efffd8f19 (-0x247c1b1047a3e419ce2541bd6636863c8578dce6076d1bc77dce7e2fdde94ce);
D 0x68bc74f95ab07f75cfdd459bd122727a582d551d0dabb3567cd3f30e2f3cfcf 0x5ccb81ccacd4d328104806737242ae5d7658567abaf159c47e0d9345d43cd6 0x1dd984a76b1602b49ddef9b5e1d6907fded00ec886c53c66f296cff17604895 0x621d2fb22cbe6f450b05f605fc589fb6521a14dd304dde2fe39625d7d2f5b46 0x55b3538d3abf0f02bcbf34b74dd2a5fb0caafcfd1d7cdf7ce1bb155bbecc621 0x2ed08dc19a816633cfd6d62f431447ea0464ac5109106db15fd112118b396a5;
D 0x6d965a8d1a7d36e799a8e1a882b141c2c3321e7828c574d0ff9292505aa7718 0x4108fe9ccdb3842cdfb17e1674c89ddca096d785e091534ef4f09fddb426b2b 0x5a9f6c671929febdba7629e8495c5a15742c1d9aeabda045a0f2129618988af 0x3252c48d4f8f19a9d76174940db4c6d1eb0d734a310a46d24de03cb96bd1943 0x5dd2c2d4cbe25f003733bf121036383ec096203fb8add4341f111f4ec5c6d69 (-0x32b6e8934eb54bd262d3ac2190ec0a89b99b81f3fe41bbcefdd74f82039ac3c);
D 0x73db0f717885ca283ee6156a209bf733d37607764993f87e9ab69f8543990ad 0x2777605d1b2d866523fb0ca576857e81d0aca49dcc9dbe4ce2962efcbce2fae 0x6c4f61216f1ba607587115b9d40ad31fb18efc574fd23f490832543a00d985e 0x40eb3c830e9c3233f600f93b85221200e51ff31cb4571dcf922c8eb407ab0da 0x68dd16a6beb5cd07d6024c26838805bb81bb87b6ec8aa6408429627c47a0ee5 0x17249667b68c3c43c4047f5f46000022e52c8d5e51d64ae9f8a01431440626c;
D 0x346d8c2a8d0628aad8e7473bd94cac47adce86c4f5c95889c2601a18e8b3c5f 0x2142df92856260c304d5ed26ca3e520dfafd303dbbf1c29534981c292314bb 0xbe9479794751d8c305ff80e5d251ee9c1ca35038b90a1e120a4fd5c25494ee 0x34385927a7c347b0b20324c7137285058f2e46a0b03e4cf698df386bcdb16f7 0x15795fa3e48a51fd11aa13fcd2f55da11bd14f0f8e1bd5f33a6123640a7372a 0xf504be2709f36dc413374c2ca92c708f1a683d3eb2fc0b71c08b3d815ec6e1;
D 0x22410ae9d821fd1ea1d20050ebf69dde28d36381598339a3866ec20fd5e131b 0x5a26ba56033ab84cf1aea7eb4be4b16a0793b43a37706cc4f0b4b6a1d577ac6 0x209a6597daa9f918c66306788ac2c885745018ea953402d26f7da3da1b8cf38 0x6461b228e9bd23ed3e9e687e28a1c8b87beefa2bd2a7c573e3f2db9e4b7c68 0x92aaed9513fc5e5769d67c273173e93f9b4658c2dcbae355912772f7a3609d (-0x1791ae364abd50a8509f87c757ba9303c82cfb0519144d687ee35e26030f84f);
D 0x7478b983b7c5b1f6eaf82800368d4f98a1e192bb57dbabce809644d52913f45 0x4254fd8f3ad24b80dfc95bbf0db2453630f7619414f370abc396c2f433c8a1e 0x46ce0431be12d6081885427a991e39ff61df72ce4711d67a68f973ec7709bc3 (-0x83262d1ed43ce9149a926680395e43cccc01276fb3931bf86d5e46bdb52af3d) 0x69fb421ba0ee2b1ea9dc5de87c14da93f71878d82cd7d7467f9536f71e188ef 0x15ac8a3ac5abab379f52282aad44d06480d7a68bc7aa96a8b2f61ed207aca4d;
D 0x7f32bfb31f9ae7b9f5db241147a8701e1397fd9a879c2cceba6ba01baa197d2 0x14eb5cc8c01b622f96e61194e6ddb0c3cc4ea8518d7abcaccfaa6c37a911069 0x57f2418c68f0fd012bc942783b1977d5ae6ce04fff61682ab644b4a6d557489 0x25995b9b96ec8398250294ae659896b3a72ab875ab2e92a1b88f2e51e08835f 0x7e66c88655c1a0ca2b59aadb2ad8fcfae5b0304d2bb5e51f8da0f1f7723439f 0x2d20cecae61ef57a8ada8dcb8bbd4b41a0d83e0810a91eee00969389982892e;
D 0x7c7a870023d012a632aa6b077b1843469dd953d26c527bbc6b02b45c47f1255 0x699894507cb9b358ff7ee3d828df5773c6c19eaa98f485dd1619d09410de040 0x39095cb2075ebea946c27b70338372f56ebb468c0465f0ce0e8ccd5fabec664 0xa0cc04ff213243b4de88e2b80f962dacb9df5fd13bc8239f5ed5e790312c5c6 0x790ddada2c09b34f42e563ebec79da4172b5a87d40150557904586723760f27 (-0x5258dc33345b50c51daec96c17aa0172151c541906777127cbfee3ecdcb5b50);
D 0x510d69edba21821f1f221c5f3ff0b563ee2e6429b8d5fa50262fc52df803eb 0x252af698b8f6e129b44f162457376059b5f57fb10363dd4e8846bc541bf1775 0x4b8bd1a5604d29b9e57a5ef15a5dab4eb279d88bf1ad6e13d5cfd384eb23502 (-0x100d35ec4f107c3b2195605d31d253c9c8daff5ed62bea957618ed60c4299c69) 0x3352fb78bb85f5f40d9d738b2346c053eccb877968d4057e3cd7e718481c4 0x2b548991506322472318b4efc5e3fa3bdd5f27a9176f4d16ba323033e3b7f3;
D 0x51def3b46654a9dd913811793cbdd853f7cd36059bc492dfd06d0bc7df84661 0x3ea718c1e868c8ecdbd0fc228dabfa3484f7b520012d943e86233d31fd8e68a 0x18211d1b471c75154511e9b7caa4bceb15a740f56318f2c14f0fee721ebc8b3 0x4043730c66dc78c14da64a87eac0ab9d346d79cc347152bd31cc9d179b49118 0x345db0c77b460f03f22531f65c410ffa11983ed956a35680222589d85f21b4d (-0x104cf16ee33e5e93074f204f2c1417a353afda3561a17332b9f7aa5845d32aa);
D 0x29701014d9248b7a7b7a5f5d7a178ce86722468247ae0d2f6f76b58056d482e 0x5e5323c9b3c70766c34fd90a10e8e42f7cd5e15a43f10e8658e90bb04bbab6e 0x2c3bab268103803954308142bb813bfc8e02a02119e329754dd3a20fedbbf38 (-0x4c60b7b2daf4cd47867741bf3b855e61ea2a151358ebe6ccba275711565f6d9) 0xd6a2c69819ca2e07a7c438ade94a7c3715c071b8595a6e90068eb713186fc2 (-0xa40d60ccff38aa0ef0ce364d12f535bc4e92225d9ccda2fe57ffd951fb08e3);
D 0x1d2915f487d306a413852abfb7bcd0ff73828d169504461aea41a7a4cd8ea39 0x3d2b2fddb28e5309dc5c31c52ac8a8c025782c0aa15f82a1bd3ce623372ddec 0x2a7e175c4ded5757da5c94480e310f8682c3a5a0b7bf0eaaa6614d89c7cf6d3 (-0xbc5f88be6e43f6110672d487a9f98c25d14278ca5106cdb7ba16a92da92e2dd) 0x6a4ab22e1f6b1dc1ee0d46a3208a87a568808cdbc21392137b6559b1920be9 0x78db1bf7f3bbbe3c6ac5aedd1aa2c962b94392accb8db09ee27c7d8765dfe7;
D 0xe8c048278b98e8766cdc05f12da89f1f99e6e18d2813f5b66ed532bb801e36 0x76d054eb3122eb83ce7a0c2a8432eb70516e5a6e9353b16563ab1ecabe53757 0x2b42e20bba7c9482048b6b487d3b78c3b87fe37faba1c0b1d5a8d9427e31945 (-0x4e091ca6ce6a8f6c48af7b96066e22ea46ba7f1f3253381615bebe8e8225fad) 0x1a73a2667f9599b2701443ed70b4399c755324a2f56f112a2bc6a80ac5c035 (-0x68d1eb5ebdb246bc76a0e6546538b4aad3e360e9c26da83c0c1a23717976aa);
D 0x67acc6fa9e605a414c7ec98d12a5d4be9edf9e1055ca11f676bbc30909899c1 0xc6e2b82f16f03de60a7c18ce207a532207d9d2d54762b48da29da87e175a30 0x39b19aa5a28a2f5f6ed82b7b5467b348a886aa0b3329768db298eeb78b403fd (-0x104c7e0e6d2a026f7b0b887eda5310336a489509bd61e9d12b6cd5a99c44eaaa) 0x53f8f9734dbdf82eb918472b66b5122bd9e7e3a4aab2ebd47f726ce3ba67aa3 0x562a9699aabfbf55073aee62e3f61872e4368e46cf4ab046dce04382ff0ec25;
D 0x358d093bd1bb2c058947d77e673683eed0a8f4591a6ba3c07edbfb8ba69aed7 0x5ccb84f9935e68f6001c9fd65616f2b9e86ae1068f6ab5d8113ef5308d3a986 0x7dc5cf1855761cf56a019bf752951fb3057f0bff4cbde4809023332b975a147 0x2ca722ba96b443644429cc7212c424c91088502fde7bcab2d6f4906a02343f5 0x1667670be2239614f88aa158507d9418388b40fd2b90ab5124aba1d4ac49aab (-0x219f33abcabb0573238341c1d41ccdb55f73b5ba95d1a9bc8c12b55ba82ba7e);
D 0x580f20bba9c6e0089fe52354359fb88c6c2d8601b6837a1f5579328151e4961 0x6d41b6096f2f921f044a7b812df54de73d246e11fe89600c653f35732ca0634 0x13df810655aeea817a8b42ee74ba34c45c304c6dc5e4c7141f3d83c6b77a8ce (-0x1cc3c0cb8e72860f8223f097924f051a64edc6c10ba0baf7a83b10ab5afe09f) 0x3c94cecbbdcc262e03f45f0febda50aae37b0f1c8db6ed724ec7df1ed531d81 (-0xb5333ca55c0d341294da3e6c1f557626c4e4fe42f8b8c3a42346a36e180603);
D 0x3e276e605b35ed9c548358873c4a3581d76195cc1315f0120df7ffd7c29fcf9 0x2a10655e856c7652fbbdac2e3f06c2aba4786b25b6ce249c59a3a1e9bf5a961 0x7f0560614c93e73df329ca0dc4392509c4f0915b5ed04d335cae2f8f3963e52 (-0x104795fd50d49af247ff6545d046df94b285b5ddf1f75e11c23b6f72098b7ef5) 0x1e2e3f12fa41b819dd2495cc750d0b1ca6cfd476acf063bf7c1a55138337468 0x20a0960a537e7a373e11bf4fab46a3c3e4832b43dd66c12c8128fce72ab161b;
D 0x59747a4cee2370a922c27ee4b54819fbe8ccb27558c23817626f85f9b1901d8 0x77ecb31f1066818f6ab1d4de2f19592df8d7660723999349ab27cfa3f1ca2c0 0x6c8fb9c66162a9a4e09fa5b867fd5a91fecd0e2add255b92e8203d57ede1a7e 0x881258a1df2ecf9d7c8900d4b374b2f64c42787b02a670a323470ee64d82a1c 0x3e8464111b73bc92a174dc82b675eef51f742484138073c745237c5752b70be (-0x366a081b1ce4ac1654e0406716f328045855441ad688587e76845cf21971ff8);
D 0x326820f701efa8f3f680d5c6971108a8a02307fc7f816e09244fede081fb995 0x42d545b7c734cadb830fe59ec7166031f604c8c743eae9426abe56638422c59 0x6bd77384c7e1db19cbeb8dfabd4432d6988db673a0f46ca2b34a537770b3316 (-0xfb928dae05cbad6afdc3764f6a2832b7d1a2a9510c1c4ec4937510e890dbd55) 0x13d9ae769363bee843e4048eb6ca375c7dacbc72e5e58fc3aa2aa9912233ee0 0x14e857718bdf69defc45f391667f8227cbe92b30d38571ad116108875470b5f;
D 0x1bf56018c81d605bf7bdc130a2a41fd985eb9eaf89e5a8130ec3d94392bbddf 0x76ae044ac19f277a658a634109b6c2f38be04889b907dd6156d39e6582c92e3 0x7a16c8d1f8f1f6313b39d54032f63885f23e585bcb8029b643222ef585ae5fd (-0x39939e4fed3a0a769286435207c05f79f18d71fbf0565b62cd47bee9c62a880) 0x61b5aec9b6fa60706dd2314a6e3e46291fd696785614aa50374d2bdb0c1cac (-0xb531bfc5ec6464e18a2257a3431cd679a2bc7f96a197eab2fcb24e9d774d49);
D 0x23f4fdbd562a3dd287619ecdd4cd427bedd4c3121e3a20cf876f8a2660d32f9 0x2b7beda86d94b2de24fbc988de458aae67f866b3f0c8e919e4d1b82fa19e01f 0x1c425932e950a585e875e60be0b1d06c995f5dbe7c0e1c1f8867f7a3c762cc2 (-0x105857cbccaf25989b1cfb168da44148362e8c9a454ef0b545c2f7164c92e5b2) 0xa19cface3f72b7508f7d98adddde40ca8bbfc9341314c68889e920f8fd304c 0x151f9ebbc3bbcd66ec770a73d875f0e211c1b9455066e3bd5568ed1be3d15e5;
D 0x6ca514d79277127edb161516b306281e136a25efb80299c2a1ab0ea67990622 0x3e0432fe14148112b75bbf2ad35d417b8a7a3a9e46d8773cbee75e7a3e2c857 0x5d4dab1dd70bcbc2d9490ebfaab013750eb09c1777a0b0633c4dbc3bf9b8180 0x3a7a7cae4a9da0b905b1fefc996ad03d0fd0bbf1e48af24bd365b8f2943044 0x5c37681386535241b066c69beaacfcb0a81fb3705ce1f055479c7a218b313ef (-0xfbae12e25d2faf01032eee969bf38b14d6177758cefc0fa14bca488fa9d5b2);
D 0x29ae41da566ea6cf0567939f3a3d9f2ceefec6a19220168ea013576b46d7f9d 0x5342f737b35c405c35422c11c0e7865972274453ade44cbb295b154ea8a8e57 0x12b486ec030527e86e4e2bf20c9068c69da98ae669530d809a5c783db69d931 (-0x1d6067d2afb1b18a98616a1d8980400a2b669e391ccd57d939af457caf251b4) 0xd928f6b0adb13cc4f8bcb299fdf0a194bd4e0777e189c2e3ba33e280ff0744 (-0x6eb071b503d7f3baf8bbfc7fe7ecd61b6c433ff210d6d3defd9c007923c8b1);
D 0x1442e15ec457c737c64bf078ce01f0d2b2d317300498688ec3dbfa8e1c4465a 0x478a08dc65215bfba430b9a64fb5192c11e2542dcb06f76f9d8249fe69518eb 0x6d0a3799f8c682fe67728a906702e80f75b0ebcfb2fcc1ac70b51aa35fefa76 (-0x9c8efcbbe15ddc0074e32e8e88b873ae5ee274d487181f096194e0594966240) 0x335095f93e5592e35420bb683b3154d019b50c6d52e81d1191b4fc457b220b 0x1db053cec144b864fc699024bb39ec92ed2dd02eb9bf000fea448c43adfc51;
D 0x2918f456a1fbeb47e289882d7d7d560e351dc54cc5381be681ef609d7fa6998 0x3071ffdf6142212c246fa0615cf61bbfc576af385931bb49c6a46853bbc4378 0x70eff1f521f0c63cba5a09a2486f2288d8d20690ca16d249682d82b6a93d042 (-0x31ee1450c94b335e27917905d98c12febb1b13cd9ae4fd0a4e325282d3a7f0c) 0xd320164f2aca5492655fc408ad91462c4c48df05fcf2efd8478f3aaf8794f2 0x76a33782d3042e4d5f69f331fb24974c9e4f6762d2a6e391839c21c7061c90;
D 0x7f97250d2f77a5f76539fd1e6fc27b950c928c449201792c5d95e166be44535 0x1b066f69bb40d1268ea8c90c26d87c28cfe342b8191306ce354b4887f49fc67 0x1bd22c099b433360c36f62560ef5f50f3c4644d00a1609180c5c2729a1eaa5b 0xaa252b555d937534d582b4da287b4072c7e8b6e1c004b8119e26f7282efb693 0x7f2e9fffa0070b611f58f264be42ed5759a43f435fbc35125382ceeb05b19a2 0x155a046c721f55855e3a218016c50e5b83452365a2e2d6b2cb6b0713241d0e8;
D 0x7e01ab4c8ff488c2e33387943b07d77cc5269c74c61691c7e4495056492f15e 0x29efb2ef381671a0ab42061862a9c9d8f7268a1b89bf2e574b42253df73caa 0x782adda90941793312a8453ef5c7c31b10673737c97775143a071c57bd84e24 0x25a85a7825fcbc042e1b2c00a95346429ce0103b9d387fc85005e35fa459c80 0x7c0b49444dda6a772c0ea1cd6a9fcfca50adeacf5512360c6334f5f663ee90c 0x180627e1933bb892b90d542fca5fccdda95c46c5013bff6f24b9080fab65be7;
D 0xb047888654a45db1371c7f3646e0a4e99684f0b999f58fb10b51a5ac57b0d4 0x3bc19b0e0b811d17423d7fb86096273dd1a48f03183c190a8b22e2742390120 0x6118c79173116a7a7deb31571ec46287fdebd271d00fab5821c8e80157efe05 0x14868b28dfbcb320bf6a6d534cc88e981d6c04ef1435ba1b41f79529ee688f3 0xf2c4df6b6f67e6d21d020b568b5ab1ea9503cf5d669401de55a7ccc14b51c (-0x4eaf89f82ea367923b15640b0911194b3c77a61fb2e82d15646d455af91de1);
D 0x7856c8604a42f14fa31b007cffc1398c480bb80792010cbbd6e364916780911 0x6f499495447fb85c561257ae7614dda10356eb647e446bdc9768a64b6129029 0x1d252076b4ba3e343b499f9ba27d779505eaa53a02e769418c48e14fe4cb0be 0x62e140269a5225a89cadc54b3ddf4d7df3e032767ae0d1287430904c8a64aa9 0x7122f28b064e7df9ec2ac4f560631f58d202350ec542dfa40024ad631bda0b8 (-0x307269f5a60cfa379d834cb61757d26420497a24936c1963c0015933d7d7f5c);
D 0x6efbcf3cb18aa85036509f8f717143b9f1587faeaab11ccdaa35404e0049f9c 0x447ef422ac42f745f8f13334d9250acd46a8aafe7176ddcc9dfcefdbe67aec7 0x729eb6b87b317902906e1c56075760344ebc0551a5ce363a5c7767921cbe5dd (-0xefbadc360bc76c12f50f897944eddd7905b1a886de63cc3ab9613f571e30824) 0x603abb9062b5074d5bc44e2fe104719745db75bff69761b60c6907f35d657f7 0x251a50811559d144d427f8bc2ebe4e1bd89259e0b0d78ea8c0a336d338c9f1d;
D 0x599efde86223fa85918ead7ebe3ae3804433dc6ab79281938d08dbfbc70a146 0x5cda81044805f8dfbc6769f1984c11555e58987970b4f47dd105689c196f5e9 0x2cc5b23d93d5199d2dd33534a26c4f19fb620f96bffc46ff3fad7d169a9e2fe 0x328b50b955607adff973aa18a34ccc444dc04dd9626c5691eb944422da252c8 0x3ebfde93f5d69a892874106746b57563da0518d1bd7776e0d5d6c5b1472cbad (-0x110de947f1dc1309e3b0597f6199420a40ff90c1ae01a7523f255de3cff9e27);
D 0x77930533ced2caafcd9fd89f06b38aa9d34e322543bb1f441d614a91303b076 0x50d0d69a2943d960a613b49d2897e84c418013eb031b10546a820627ce4c0d1 0x61e424688b2842ce7b80a5dc2f1bd9b6c9d72f5797620b1546b1c1fec06e396 (-0x766c3a3ecc03335aed7ebb0a50b8bb136a330f160872b952bee2a313b1ce80c) 0x6fb4068a47c51d3ba592b3c542d12eea7f9d6a6a925c1c4a05a2a952053c9c1 0xb3ed0059e6d38ca6ce6c863c5fed2e7df47dda64fc04d2fd47f642403c327c;
D 0x4956ab4349f97380e9ffe572e79d6d10d27680233d977a250c37f115c3c6618 0x12a1d7dc0056d47858d3468bcbecc262b318c6678cebe3eeb04886a0e362910 0x216f0fcad9027b3e7d5ae65122806b23fb46bcdc23b4c60089b6e62f6fd106e (-0x28e658e608bd3def09d3713c305276d04352f879ed438f14b6b7ad73b904bc4) 0x2a051607c7f1db9f11d54b1a0647c0ac30bb2fd5c03e49a5ec80da23bf7778e 0x23a0e80f13f60ac6fda2ac6d6549c684f6112257d7096f32dc13326fb0d2c14;
D 0x619e37502a2ff0ca261066c55355cab068e4d5c0c447c1481eddf93b69790f8 0x46a94aeab2bf90169d2ebb8a6ee707f1f58fd90229432b43a22ea74be49f5b8 0x7c69f90a02f6e1c1febed2a10e95f8cb0f50283cd06fdb91c036a12d105674b 0x2adc06facb7009f47ad0eaf8064d48996395b9a681cb8ba5ce1fe3bba8d321f 0x4a728f6625bfe5249e10588f80e4e4f06d422512474b9a18de06d641bf1a868 (-0x27adf4def295bf56ec7a7cab8c7a9b890e93d99d14451f7c8dca180a5673a79);
D 0x63a2a36aa3f96932a362212332c1f0159c88356d70cfe486cf5b00d33e41694 0xa93ef1c9c4029b7a5849a41ec0ed58826402afe2ed0ebdda123dc53356f9c8 0x320a01ca600a833f61c0559fc72f2ea9a31715472fb568650b228367e8ef064 0x4ca9f99cf92a5f555282615daf33d0bab1b606de81957a681753182ef3b35f7 0x4d8e636f6c36cfdf6d6860c57da60556ad813a9f104dcc1b7aa649081b2e058 0x2ec4dcbed7cbbf2ed12dd78584ebda379f7cb7f3a057077c9074ced184bef11;
D 0x79169a65b2f95e4d84e333e2a8b88fd8435ff6ff0722193d9257b2a276520e2 0x6a2bef151123fdf43461f0fe6808957f20f4d9e9288710420937776cfccf3cf 0x1372c151c52d0bbf720d0248663941e7fe696d6b3be84bdb82aa53efc4ef09c 0x5c0d3e8a8cc423bfa518201f6f894033cbaaf67ee2dc95f7d067a0bf51d6bcf 0x728cbfe613920285057e4179f6b3d2cd65701924dbdd6d2f173fb1e9c126025 (-0x5a6e9167b0c3f7cade28374933166fc564d463994f5cb36ac90059910087b2e);
D 0x30798d038e035a0764c740037f5bb1fd6dbe4c51bf297409d7712e8f5e05a1f 0x5db017081dab26862c21e647df4287e64230f0c39f29e1d4572da3bfd93b1d0 0x102c42696c5979b9ffd74f425df63e23cee8f9805113ecc2fc462506767ad6 (-0xf9777861166804dce2302d3aa47e84bf6b146d96a6032ddc667e57e6f03ee5c) 0x125b9d2fe094d6ad66f1e530fb7d48a419bfbb77ba57d0a67af1c238ecc3653 0x4ba4bd7dc4a84d8ea49c6d0de4d43815b05037521d6c43fecc47fe5d7d386f;
D 0x17d1d1ef6eeb4d70d32705aa7579cd715f3561b0436b23ae1a86781584f2f7c 0xf5881c9f41647bfa28210e905aa1fe5adf4244ddf115e4d2b12378bdc6e921 0x2a59f08b4763cf689e4605b8e009e2b918843226365d1005f916a819a4f0177 (-0xcd582c4e33e343071a9995530f75d443586ebd9f99da78d2b756c23bd2e47b1) 0x46ebf62f6146e4d04b49fb53fbb5aa1b59e8d2193c11e0c3a3542ade68774f 0xe94285068141766534c6c3778b1ef89a013c679e1b1b9094cb4cfff544d977;
D 0x68c6615af82d04673c7edcab1dd370cc06eadd7b4e3049aec55c30506bcde08 0x604abc64eda4934ca48c7995fc1ef87d4a2cabc0fc81fd58fbf958a3225664f 0x7931c3cf7b6ef8652821a4ee3beec77c289861ad42157d92792dbd99d40f201 0x3fd07ab41ab14565de06846b81177556bac0ca68cc3155d581c7553de3738ac 0x55c391a94ec512823d44f10bdb1719da5ab03e593047127f9fc65938e9ea7af (-0x424243e1aa2a1485a9468cae1422ee6f5b372c0adebb4075b872209ccd9c0e8);
D 0x640c86ed942c396f3c1262c286073d3dad06439c55f052f470032887f118a0a 0x11b873dc04ad3fb77d1551ec3a68325c7ef82c5bdfd53bbb6549edaf7deb4d4 0x7f12ea41020802876d5edfa831fae8140e2b4a7c8d6dc0fbffd2dc3e562d36b (-0x1bdb57e3ecb862faa21fc2eabbdb5ec790c055a4782fb1c22660b75570d2910) 0x4e33940d124c08965ca94bc5585875aed4e7ccb1228d540d1cd30da2f9946f2 0x3d69f934bc94fac4c985e8e68d647ff4289d8caddcf130f705c4ebaadf67762;
D 0x54219a2cecc8df645a842b2c40699d2f588e1df5305e4d77a15e6282721822a 0x4254291ef681c1837ff9edf3c22993377a41a610a7e7693ee8bd59b0ad7eb 0xa125b4eb5346ee173b9b6fa1282f45c1a76407c33a52e38a97c96af49717e5 0x9faf7198fb02c15b636b4fba84dc9c958796db0e25eb37d3f640b57187b9c6b 0x374c232d2fa5e5d93e6a669506d5c6d54622f9fb590d4c9d8a395a0123a6d51 0xb7a1a49d1ea7909b0051bf3512241d7d6dce78bf2c507e7758f934efffa4ea;
D 0x52cf9a78be1715dc42fbc25dabc2d68391171ba82768e8af767bb5020ab81ec 0x52069d9d9a5bbff1d19e32f46da5a68f20d13874fc545f9b72bf3dea99ef727 0x7237699c5ca16c438a4299f20668732e7bbdad504767e5d258cdfa13b29951a 0xd07c98e518e20133e0efc5de910c742a3b145497db42fd906349b7f52d230c 0x35934ea10c7f61882363ac5145d6fd2b00f4161c3530710140a4357f3830a93 (-0x34e65d2ab33f870f9aadfbd6130f9658f8c74c9fd23107af44af956a11eb44f);
D 0x1558c5ef0011e753fc6c4ebd19554d8eec7c88f4a9c3b4a63ea6de53fa009be 0x5a3e287a4ce79823bb42df24f3eab740e7e1cdfa5dea066e6afb265acbb3d 0x7a53abb9f9cbdb54ca4a00e54829266523fd81d135ece9704aa5920383e1c15 (-0x7798d2c6c65c3aa8f3dce1622bf92b9b66e21014d3750a31ccf4aa4978bb13c) 0x38f5e83c6b962f770902bdd2195080aa9b894f2adde8d81a86cb53f8f43f79 0xd9eec76a298661e8fd447c420b91755079fde625d49efa86103cf286bc007d;
D 0x75b91ab60629a708f045660dd40f1e03eac4923a0b82fec96c794e98ca885d8 0x1fa70d8dd940ea870a9bb8792622519f748694c3e2ef12f596c5fafb17a6e48 0x5ea2d83c4d33dc4d449fee6910d7f56e4a58f8a76ffdf435076961fea711ff0 0xe10203fbb4685967ae228d484dce5654309dd0c7bc27525477e71ea76ceafd4 0x6c457083ff00ea378c20e6ec8ebc7f9ce480b742b6e725d4164656fb4a6417e (-0x1cc9791e86278bb598ce3d606cb38cda5003ede523f02bff7519344797b044d);
D 0x26277b5144b26802453283ba15f29012a9aca26e9a638281154e278e9030264 0x48add6604b735b2d268f237299dd1dc05082df96b259a3971e7e0091dbd4461 0x1f8bc70eea8fbf12953e389f27278081a29deec4fbbb36aa1f7a07a4e4876e1 0x20efc436776eee5709279350a56cf23b8266045acb1c7145f5cabebf81ad6bf 0xb5f7d65dd1e2e00861c37918fbdcee051f3d52d2ce07774c00a8ba95ab961f (-0xc3aab363b4fdd13b12d6fd859d5186e9ca2d2a1d065da007cc93be4bcc6a95);
D 0x601f4c74c21a0909d63da9832bdac0656f35dbc9c522fbc87d081ef49b1a7d1 0x48da08663b7342a5631844ed754a9b23554b355937566af7f0f95c44c3ead95 0x4711c0f39e318ab6abee2dd18079b3156b256e02ee723b7ef456958414f7e64 (-0x4c6c5fcf542fb64bba7f4532a5fc3e59697f6bc180e9041303b0cc4f7eb5ce2) 0x482efa56596022919e8f4d93f82440b455b47670f34c57478cf7166274b224a (-0x213052f773ee43af367df11bfb7de385c8f7f71cd035ec3f7fcff83d3c4b9);
D 0x250d3981c417f23e09d4e2629dbd385c15f1adb6ba793a64100561c7b860307 0x70af6fa1428f07f774a3b7b0e74d35da14c459196a845a981d1f9471273285d 0x4a73f5c833236b385caad8c3a17c475b40e1c43e7340071abbd4a4e0025ba4 (-0x533f4382eca82cd1e7573fb445411acd84ed4b879a4e30ba6e420cb2d9ce8b4) 0xab9a69ccd8fc3060833e5106f4d5683963aba3bc8617be590245c83a6ca6aa (-0xb87cd68f61d4c387fc5a9249d52194107af8e11a90dbed6728133986e18d80);
D 0x42263d26e3b20248762efe8a8601dc0733f356d80f5cc68718d59ca5e8dd522 0x426f508e795da614b03268b5163b825ae2a48349f530ab28aa3f95d8acd8fac 0x5db7aa0591859c2a976aa61db15e2a1177606e31c27b2a5115d9c5b28c2e3ff (-0x124cc9a5235dab43d00537465f5f4d710ac169d71d91b738ccc31bec49fa55cc) 0x222f7a7c871de099e0eb1d1930392d3b93922a7b53f79b7361e88d5c131b81e 0x17e6e127856f677e2b7ca4f60f93dc5f81fc75554ab6708769b62d0dac14cdf;
D 0x52ddfc99515da60c031bac541de78c89b893fb43a3cc56ef60c428e9b5298a2 0x648c73985dc4a08fd9e8dc6012da48c696d31aa896fe024beefbff7f4ff82bb 0x3a1e7870979e0d8b2971c3cea40ec092d0ec7025a43566f7a080d867d91ffd9 0x11e6de4f687a50e154ea66463a473f0525c54ff2393b26f9a30eed550768c0b 0x35a5eca0a4295bb43a48669dba62f2fe59717b826edae4b178a487f442e2471 (-0x1615d4130ee5132ae5ef6950be12343253b119beb2e7a4d5419f922720f9b56);
D 0x6d90b2d11f0e786f3951d5ccf878b109cae3bbc0becedbc320050c96722d739 0x67f1ec2398417e4bfe397b45d399141489a809fd4d5de3e5ea7bd8f4625a231 0x2ef0a7f722046093b691e20e597d503584a1394893f75c6188ede141985f185 (-0x8974e020a261d503876201a9ce3c5872e7d6cd89ad9887a030bf702c77ef12a) 0x5dc9141f793978ecce553bfbfd8503dca6a54d392d6222b4c3f67f08df0230a (-0x2e83f8cd493876d9d3534f0444cdce19aa0245cec0527ce50b28d154ad0ca4);
D 0x75d50b3f96f55730f4c690617b496727202ec96fe56514f61d8b84eea1144b7 0x4266ebaaf9941ec99f8b13810e1c60e72d6570d2507cbc974fdee17d6e23630 0x290c5ed3abbeaf93cf785a9667345d624bab1da425c5e3388a05f6170a1c084 (-0xa6cf2f93caf9172aad2afadb8ec99b0258000d064b29fd01d3ba842614c33fe) 0x6c78db27b097f88ea41f09514ba63ce4907c2133ba24aaebbd319165b92403f 0x228f8b09a27df8b4bf0ffe0564893bd7d906397330d480f52f56ef9fdcbc6ae;
D 0x415263de19ea32bed8689f8e0702f4189cc2090e434e8fc0c7d59bd8b3c98df 0x2722c286c22e6c609cf36d1fd4fa0b504c3cacb0896bb3adef08aaaf89583b3 0x1077a972f55cc0be540e79b3441a11813b37e5ff92c3301e387ab5add58a413 (-0x3d71f926c3767ffb530aedf40824f5316b883f41e18574473b18608045eb509) 0x2155e275d4ce20cc31ecb2c92339c3c106bfa387befd2e36e593cc58777a22e 0xdea29d4c6e3b2be59bc16933163c86464602dafa5a53bc72782f43951b4e4c;
D 0x66ee863f176126503188a30cddc837ad1bca631e176c41883f11b35f4db0643 0x2faa7007a927a094cdcc71e6c2f6c5245269397a9df86e3401ac2b84f2c19e7 0x63f7543f3d64df060e3960028919039a471c4f7b8e42881e03e2e504f0a5c33 (-0x9699257b781b4610381eae934340663ffb7fb68a6bf50c792c307131c3478a) 0x52c5e27054adfdb2d4c79b6eae482ba32b8395e92726106de5f21032e72143c (-0x6dc037b91b53eb2ea8a425f9d9a398a0cd2a85d52571cbab0c03f06bcd87e2);
D 0x33c87e2fc7b5bc039b95e06dff0af01e9e35828b147cd6111a943969151a9de 0x6fc22bf599f30e9f87daaca743aa6b0c937da67e81122c81f923502a5659458 0x1ac4ed74c46070fe31951272a6932aae461ebd5b33b2465158ac83246490e16 0x1ba2197c761c082228ed75f0582c0371f9aae270822646754e813786de47320 0x14f2fe98e4db0c959219e1e6078cfd6c2b083b53134f4ae806f262f2775145e (-0x19edd925bb6e6bc41dca581cc0a81ef6dc182f16fe9fc71c47f4da50bc13147);
D 0x742d79b0ba6b0760a6d844b0cb55e944fbc90044dae74cf927cd9d7b0829e54 0x390362f1c901d2516484d668396b4c277973332b3e98e3b92f178587a40b023 0x7f2337a59287a4d5706d6dfdf76255cb583377fae467bcde095edfcf051fed8 (-0xf423cca0fd3f74fd794f49b0b254dae80f33497b75e8c3e30f056729e853451) 0x69727cb855d624345adab10545513b01015778ed883b224c4ce5312ea2ff2bd 0x31b0594a10c7168d1db55b6383540519e4b66edaa6cf467743a136b09428a76;
D 0x5fa21d4042af195fb4965e528cc7029783c0b8c04b2c2cb16f68e43b81178d4 0x56e436a8cc57db975058af804fb710debcda384cd5b8c1b9dfc041bb7d72ee3 0x39d7e9651b0f7c98122501dafc84c261c1f69de3e88afa7054efe3c13653218 0x71cb453768fde367286d02c2408852ea42c74392af6f26df79b39a78b582764 0x477370bd7453f2c49e56fd44e9981ea6c826a5235503c1b231a990d58d6e067 (-0x1652b481b80c32516d31aa154c9d02bf9be8258281bbe577d911d1efa8227f0);
S 0xb1a5eec80086217f25f1ec1a9090d739f27e4571e1222519476e892524aa62 0x7de0fe702e9a7b7f15239a0f0df30456d782ba53c8dd50cd22733dbccfc6898 0x591323cf902fcae37245ad18c15e1ca069e902f62ff1daeaef0f78d8ddf3d1c 0x4da659a876f3ef24f57100efb8cbfacc368c0e58df6deecf3a1517e3c6f35b 0xf68dbf7c7a8546da83420b2a3616d553095f4b02bb64d41d4bde162dee63f (-0x361c16d62b7c87a01739c95e211d35a692f69bccc57249d279cdccb84ab87e);
D 0x5a4f2abe37dc38521d6e7e0fbaa7efab389c0061e97d7b3932dfda8f6d393af 0x54f8e9b5f23efdb92435c41a94caaf80e5b350cb6942a1df4f5831779d8a376 0x7aeeab8ee9527483fedbdfedc4f4844c86e1a56be5648f9fb5b8ca89c7d1c0f (-0xf5afdbd57340a7613622d8729d67a29136aea0cfb9dbcb3628ed23a1e67da79) 0x3fb785124fa091d80be2c120abc96500fa10685cee7cde261d71f9207dafcfb 0x1cdc7b78ae878eb4834ce516259a6c63d355065bf1a3eb88326ebf65c4fef13;
D 0x561881b1fdc17e587eb03b9e12ada8fb9ab7a37b810dbfa3c5c1a1e48ea4d75 0x4fb3b16c61d830438ef4b2788bbb72fc5178477b24be6175749bc029224a4a9 0x685570c59d4306417e29f768f8ee9788d827f2ff2a342310c7f93e2f85f4108 (-0x3d9fb36f8bc634e4b25fa011cfc1382d391e6ae48007abd7d9dae359d5c377) 0x39e8f2f85324e4d70143da9101eebfdac68eb9f03eda34c064dcb3dfb7dabe4 0x38b842311b4e75f55a0f5696a7aa23f62b524beea313de99733dea036cbf9a;
D 0x36f15e1b344915e7f4a7d6a48b290ea33a4187b7be44556659a273c316ee375 0x2e3c3995dee9dac1382d472332042f20397d39610411da52bc84b5eecb66b24 0x6586354af38d171efc261d6fe519a521059b9c5f050771829ae22f52ba9a995 (-0x3b50cf81b1c4ba8007d868817952f07229507fbdc4c54f5f5954ca9910d4564) 0x17956e8b97be881392b57535d550e9a091a10dfd81d58e31f3c248efba4ff03 0xe5d8218f9ff84a3d7236498bb75b2217d957cf5e4b18e2cf71cc2e607e4e2c;
S 0x333eae580946af5aee65e35668783e81e90b6af0138c8a4ac3921745ddceb1 0x182891196f59ef3d2e34ccdc4e25e518f50fc798c7b05a04ae2d380941ab3a 0x345c38e22e0723157708bfcae763a07a5ff763ed097664e4af1f16820e15347 0x61f5157959539bbc66bf0ec21b869450d52b538b00a2273c51965b75f4f86 0x1484119ffa24e5cfac071cc7dbee27b575d731c90c02a686ba3452f3f7039 0x11e7e331639917f7b4e26ed83e1a10fa3d97a5dd954975f3c19517a89dffee;
D 0x7f83f0788c9ae9d3dedbd0033b1c1b990891f843179bdd2abefcacbfb459a2e 0x733c95f7032f299c8c0cfdf6d2f9a7dd17b020fa87b150845869c579be8e263 0x3cc55cd4cfbff66b779ae535cfb20ceb8454e785d71fb38fa6f7994bb58ea8b 0x68454497e8f544ccd9fdd3a546c0a3c0dba37037ac046d74b06c5919981be17 0x7f08592f3187b4d643ef6260e0326eb224d4fd8507f1cbd5555b56eff3b276d (-0x714bd2dcc7b53d3b45c5243b1cf75c3730369b69c66237b25d0f28bde81d130);
D 0x2cd5a94a646cd17d9b69f7e0e0d599e4309e8f679fb01f400f86937a5f85275 0x704704e05eda45667939e0e08578e3adf00775f35993ccb78b0218ff6b44941 0xe16f6bf0e4441676c45d90d8e93f9f5977fa6802f70496ab156218cab776b9 (-0x10caa5d0453339b0c35ab9cd1a64315e5076d93db829a6011f00458b281167ce) 0xfb449097087a679f7932e7f157a4c24f5632ae1df0f58a2ee4193180b91b72 0x1095a6d2a04c72734c284a9ca6624d6608ea21efe85f83b4c3fe7116f67f46;
D 0x23e5330bd257ef389871aeeb3d96bc9a7bd4e3433edd0921ca18ab70938a865 0x57c83ac7a70cd00e38347cefc967e6a59e67ed4d4ba7f0a9360488f02e8f23e 0x805a3f375ae3ad936923627eec744bb4d4d0d7aeeccee1e828f14ffa62504 (-0x11f8e4b77e6f6885ba41569f3a0f1cb229b6b59d9f4e1537ea8c045e5993e98a) 0xa10f25331b026171943ae34603d15b8a4f917f2ec1117ba72c211844a33319 0x6de87dd1a27127c9d8d3c308465a4fe07f84602386dd60863e97def99db072;
D 0x7c08b356f082da0843cad2e8c2021492b90d4a83aeaf8d31bbfc4c9ccecdb1f 0x3c009f694114b8bd5bbff9a9e03fe9431566198ede1b5f5e9e2ca22e6de5792 0x6180e72a9d7fc3973b10fae23cabebb3fff2cf3723f44f8bc9eaf4239fee179 (-0xb3a17b10280d5a697463d1e40daa552a197da301b07367686fcf0f7fbda0615) 0x7830dc0fd820f986ca1d206bbfbee36c9b4ea948df1f19491208bcb3805d1b3 0x1aeb41e92a43c54094db0cf3f7ebe3ebaab2aa6eef0635e654cfad0e484d857;
S 0xc44caab546a0405a413675896825ec04df6a2c045f01f6cd0c5e3c42cb9590 0x251daceb4eaf7d78298fc08a662637b469ee1d6efb67131955f2ca6e3580299 0x215ca3fcd3037d7f830cac5df54f17da475ab9de991c3ca57f68de95915f873 0x2c90c6e5478393eba19056c067b64f405620687ff076e440faed5862a40ae8 0x12d0af8b6c3392534aab17fbe583b3eba2bc1607eeef93cb7d422f3646c70b 0x23193896a98dde6760adeb0e1466b3671720031a25acce71b74c6d2b62df24;
D 0x6d5569844b8564d6e59751d6c858a9ef96fab84062edc8d4aa94c7d07548a59 0x688a75bb865d33d149dfdeb15b8329172361c8871d5eafb276f746dc5796a79 0x6f99a10c1b25a3bba2cfc2a8b028424db055d2c048c16cbf30e59ce22a8903 0x18b4c0c96d7fbec6eea1211ebbd956fa1997478a1bf2d9bb3cd56bf98f67da2 0x5d63b0b3cb4f10c441b68f5ff3e643b44bdc0f14fcd97b0263de0aa6702a346 (-0x3997a0d39660cc5f5de3755692a07fd1b67250b8a6aa2084af8f2be105c5e56);
D 0x1672022ff09f0d7973f990fc0ffe6a8802cfd348f5b548a470c31b519b2c9e 0x76366afbbef9344ad2af2cc298a228cd4c104ef20e2e8f0615463c030cd3200 0x7176d2cb591ea00e16fadc709cd68b6064b3950e590edde6a490fd646e8951c (-0xfffd9ba83584dd15ed9a7ed1d0650744fd65f2affa5f08a98b7a13c8ac31fe0) 0x3ef964c6024d962d4a3e5107e0b77e625af9e366a02780c461034f5aaa92 (-0x265bb894599b25af0a15e950d8bd1a282c8e39c6746d222a632dc52d07771);
D 0x5b733d3821ab060521d80ba6e950258500ca49148e816b7819a724f852ae3dd 0x6ac2f36702db384897e5e5a0ad55488471fde4adad25d72a981404fce5af707 0x164e91f1b9ba47cfe205b01366cd29a76f7ed94f6ae171a3102e97a02149608 (-0xa5640363a5200e9e2936064631cb460479d6e114d2c3746d30c856c6e1ae5a9) 0x415642cbee034407c6474bc8c05037e5dbafb0fd55fef2f1c690689016051c2 0x82e663b39e298612cc1c4eba5b44ee669e38b1dc630c8fb448da3807c488d1;
D 0x3e2f5e1412da3a2cf598e8dd73894e0335d929970f27fa56fedfd8606549734 0x352f540a2be9c23d064849c070d5892e85d318c7b39ef8d56e7693e23e6db2 0xe565e5d223dd55bfd53fa36423305c43992bbfa2df71faa9a8b401e68d18c9 (-0xf577844af493e4be01d451451aa63e69edcd97012d64aac317577abb3452354) 0x1e35f4aace26bf3480b39e1bb6adf4716c880da96bf6996b96a2e46847a06d0 0x32408640600523c9b72a710452fb926ababc701f06b001bb0af3d07f00f5973;
D 0x531e3ea2891f34283c93cad7a28e4d6469143add393eed81d986b732c8049d4 0x70a30b738b83bed210ce2fa8762ce9cb15d9906ed349f43afa5d1e41756ad17 0x3dbc163e4d5d156fbd5a4f596187e638dbd076c477d9ed2d5ca15509f9278bd 0x125c7d1bcfc0286a3c3b05119919dc8bc4c4182f04a501b08317edb67287f9b 0x35f9406044ab010bd42b178ecd8750e6dd3728944924ca099f32716ed770f15 (-0x46fbc2a7d01580fb212903c24ea7814e4d28f243a457a6880eaaf4676c7de2a);
D 0x619cc9d63a08d9f34a1b6e867d9de71588ec38a99327adfde6fb4f3da27fd87 0x52b510929ab25260477eecc61dbe3f29ada6785ef7ed8a6040a34d78c7c8a4b 0x46606a94f8d962f88d2f0b9c8e3ef9799483f47e8573e538102285b13ab6b53 (-0xcb321c4e1e7dbf008aaefc7117c514f5a5dbb566215a748e504c4c02abd5ede) 0x4a7061f5e8671417c2eeec3282b19a21de805fc25e0a378ba156fb36b0c38b8 0x16d3015a040ac4f950e216f6f610be77f3feb56aee62608b99a59ac1f421184;
D 0x3092149b7b76e3ed597e3ce1e3bdce266c5d61ce1d278567067ce9ad34c2c22 0x3c3c1d71dcb4fe0f54dbfa79225f77e2094441e9ccc26c44d7535452c96cbd2 0x64f5de44ee0e22c0284f4e7f300c441d425ec2037c9a947b45967f0c9861d66 (-0x6aea058a2bd66683d4b9896ba49d9e8ac39b1e92fb2e0756a46a5f43061cbe0) 0x126e362ba29c257570a0d430ee8983966b6efce70c1e6626ae4d95e023bd41c 0x88700bfcab854fbd1f61804beccc0033cf72e28487db454d03509ca2fa8f59;
A 0x96782a16aa2600ae861680bdb1fc0ee09a9e56e09adc9d0ee5153c3f7dde5c 0x414ea216473fa4ce8a05116ca1dc7afd5a100cf6a072e230f64de49c0b50778 0x14dd4c7e77d3fca0729fdcddbf3756c76a8885dfa32276ef663a94523c1f604 0x226f1a4be0c9c78cd5a6d156553615589154d4a8b7a722563c08481dac4199 0xb0e21374171efb0ec0c69251b3040b6cad02f3fd3ba2abf863359786c0dfc (-0x5f6767800713640312a01fdc860eee4130ca09079afe57a9823a659ed7712);
D 0x5839312380fbb619f615265bc9280c81386ca5c418725663098ff2162d49a56 0x126368145a3c92c3c45735cdaf3e13a04f5f3473bd256f603857d60f9e9db9b 0x3a4c73e0d784f2ab8233180dee3a4e80ed5739408c8aec0c5971e06f35e8238 (-0x4733387be3421d99a540bd5aa0e075861b181940202a34a03a940dac6c93e11) 0x3ccebd1ea7d632aa6d37303b99270fa387993cd13d3c2e1903f5af15827aa59 0x2056aea4379bbec85ba93ba5054d6bff43c5657c5b4cc1b7a540004d6873602;
D 0x7465e254d204eb1f685b3291042d08e9406caeb9bb77a741b2373591f710cd 0x2c210fe3b172155b3b8f62a78e3d2a437bd162d56f4255e38cf6909e2e12fc8 0x744f3dcae32e17ea013d51b4c611fc7b025a2d964a4b936e43d4e2e283afa4 (-0x14c515d8e5436b85b0599d673abe6c1f7c8bdf81f95757aecade9eb9e621dc) 0x69d8fb527ab816e16af391b84fc52bcccf8dd2f62303523f8768fcffb5d2b (-0x17685d3e3b9fa8f2340a3a388353618693c1103ea5c0a0dd482d5c8d9e69e5);
D 0x7524ca6c37c80795343b1d6d408f49e0fabfdd59d6a6456cc06a22a4fb3b8d0 0x73808bba0c6c0d1d8f69c779a52bd7b36b146432478e33e5676b3451e9d2d28 0x2e63d4d97f5ae3cbb32a18aca6daf115ed7c7ada256e48eb04442c984e840d1 (-0x20560ecdb1239b24a21854bc92a3a8c8a2279b297e5e194ac160cda399ffa41) 0x6b354ca0f2f6f90ac7f174c69ee48e8929e3e57bebd3c9b175ac92373ec1c48 (-0x4151caebca8b674bc476e9144c84c445a994ea47f196380d617141ed866ce75);
D 0x4a3868b042da36d5ca12e895e4dcf49cdac70c1c3977a625bcaa2f7e179c286 0x2e1adb28244bfe221f44378d2286577d87b493dc3bbf637fd4d273aa6ffadcc 0x725ef3276bb00044594d12c6ef8790b546c824b7e869fc283d9350755298e4 (-0x102e023275a65f5c6fd49aa8965b4c1cfd963a8e579b5618d263a6bf9422a3f5) 0x2b0951e7bd262d564d0551e0a8b42cbab4ced361141f7b88efbaaa81e415608 0x283d5f53c990298a64211489ba4c28579a0f250a75df0a0f997762b0b358873;
A 0x1a5d4a379271f3ddacc44c80c0200be1cfa9519d3a77816c54748ec9d882adf 0x8cd6863a06bb89921ba034c7500ad4cbdcdd012427b37f321ddd97f3d42ac7 0xf609ee419eb9946aeccab483c56303ac2ebffd31628ec503820a055a25d79 0x31f7ac0194818a4885be3f60847cb35e511ba6a42e0ddcc94ee93ce5b8faf9 0x56e2a249747721125a77a99889a70bcc0ff6780207918efcf185ccb60645e4 0x7aeeb3645dfd80971c04533df39d7d53a07ea42f9a3a61c67a31421718fcfe;
D 0x7091a4a5f7d0d12c6cfb0a37c3fa524029a90a55a893d1cc1b59de7d9d3ab7a 0x39b1aac873786647f11b579a6af6de9a219fe6d576b6749dbcda405e9daccab 0x8093a5a51d1045de8a27cd864b4d7026bae6f38257a50871968cf4d6182fa9 (-0x2022bf0ec94328f3e30e567d1de9f97a1c787334806948714bfb84122f6c0) 0x62ff85da4d7d048f2688247cefd7cf76f96ed6a7890396ea42642af207513eb (-0x2aff5b8f48d92b4ac352bd2227a0ddf067f2cd75b822fbe36c500c08bf2ffca);
D 0x2251927c557cfe77da239d96135a7baf1a65a1b4b77cfc629f299dc1ab978a6 0xd4bd302b38571ed7dd74882fcbddc9a46e76d8c35a58fdd0662be6caf8f22 0x5138b6388f3e40c8d4b849e94526072775a99ed5a3c270987aa78d88185ea33 (-0x49b4730eb7bb1dabf4c718e5163053c31f405b9bf4f32d7f602b363ec48af80) 0x93389ce1a6ab5192dd518b11dc975e72025abc3c75652154fe51671062e32c 0xf3eebfe0890d7381da230679e408e56c7fd3c4b422ce85975e6c75794504fa;
D 0x3d68b2f5d098861ac9b7f438012faaffc6991c734dbd2a57efb82380c610cee 0x74603d1c09cf6f101c0aa2f09dc4d8e3b006e7369b368308620bf7d164cfc95 0x11dc2d2fbded9b238b50375cb9725846804c9a10a590f65570a0cdc9c9dd3e1 0x4deac8385f82651ba03aabb22ba1680cbafb84f58c789803b36af9094113d47 0x1d7620361479dba6e992f5f0a8544e00cf86fd943bb375d5eb719272d57126b (-0x376efdda3aec154e374eb3bb3859cfb710d6c011656c53e5b86abda0c33e2fe);
A 0x383a49b2254cdb52961cef3e0d84f5e423fccfeab18f82cc3153d74e05082dc 0x2474a92c65b8d22cc12918a20f49f1aad0ba862a72fb243110c01d6427cae81 0x1555b20a8cdc76c6ab399c02559b7f0a4e4678b9d394269d2bef04b20d97419 0x258769dfb62dd3e109fa130761ded0c51a7f97f23d3b8d609a8ecb8165c9cb2 0x18b31b06d48337d5fc62bae7af3de88f67fc6359e24641f37596ed3ea56b230 0x231b757b75a2b900c4d2ebaa8e536f8146299678695df337a73503ff771f936;
D 0x231cd2ede33355953b22c16c5999f957e74b97980dfbdac47bbbc4d7c9b2b17 0x74d5b6e3c2a15f63a2b939135972db05d751c555941bdf82556dcf193916015 0x4e907dd8235d2ad8b8dd0afabed779b6057acb5fe617e6131678f14fc1f1b0b (-0x1371a34944e9b4836a1d64ae1586646c3199bdebad49dc4add86fc255699486) 0x9a1c9d7bbe9c4cbf406b55950e847d4044ec4b9766bd7987738303648ffefa (-0x160ca36fc0647df96822ae680e560a9eedf255d9473457ca73bfc8214445f70);
D 0x4628343486f9761fb0812b1a6acfd24654d91129dc1be48e2839234a5597756 0x33bfa7e020ea87c2a57221a13a6f20e38fd2a5f452778e4751fc72ac080da3d 0x15d7102d4890cd87dd4cf81cbe0afbf4a2e0cc9b2a7159ab6c738e005ccbc7 (-0xe9cedce89d31ec1ac8f50ed3a8a7117f680aa004d2ba3a5fb273fdd01dcdfc8) 0x267405ba29bff803af4d5aefd33b225d13ed3252ccb1b3cdd7984fb25c9767d 0x23ac81a659440aa10d6a840483af63daa99cd5cf2518d1b222e2127596077be;
A 0x587bafbbb600db531b0d0c5668ff00ddbb0e30268409955b77955d18c54c175 0x4a296bc7fe802044288033a410402451bddcde070521009ee82d044ea046185 0x11928ce54d2b75f03704b30265d99fdb3bd2cee504dc1ace1eecb18d669c3de 0xe61eee6b99496b8b0c1380b09b399d3bdff13eda936dc51e1e832b8c0e89e7 0x3d2a8926c8474fa6f3890021737f2db0931bea15af1564e3d4d8db60b3093ed (-0xf7e5f17215f851e1aa273acac4cf778df3ff0e4c013b0ff61907d3bc80ab8d);
D 0x760cb51c60b2e52f276c26accd60f4c566ea9f1a9a6615e666ea9ec8cfddbaf 0x3ccff911bcb7cb17210275b82708cd5413ac861310b047ddc4b4911d660cca9 0x335c3567be8a93cbaa5a6dbcef29c533c9554664597c9bd9fa77ab77752157f (-0x607e25187d04a143235cdba0df54831605c31e8e19fdfed996defa0f1668fc8) 0x6cdf6f2f47de3ef71635790a001fc217766ba70c69a6fe5f2d3d30fb20151ee 0xc4fc9063797686a2ad233a4471cdc2783ea7d84f47892ab5da2cc97cdb1d07;
D 0x5cb23c8a95ffbeed79123ac2b140dcb8acd0ec624a46ecb01aa1376eef065df 0x3b52d618290dc97f0b15adbbabbd61c809faa7a2c94ca6c3655c57862ecc825 0x26504d880a46e0c27b4efed4dc3d3ec37cccf8a29ca881bae3e46d279725fd8 (-0xc494c6efd1fa75f2e4d6c05229b4a908c2c5de4b0c5d160c5d0ce6f301ad72) 0x43212f37b5b353dd9e3851d40a74ca2a720577b0128770def008b21befb56ca 0x11403dc4a40e012d6df485234cad8e2ee3ab3a8222888c808d657d5ad38da5;
D 0xf406f840faff329b01f3062779c907a4d70522abe44ce66a79ce5953149aa2 0x2b90503a0f3c84d23cf04f18e2538f01fc385c0ec2016d57dbe1b7c793c9708 0x59c70c3c0924a5b42e4b5320220dd9385835f79efe502ae74d2e869de2bbdad (-0x495a53b230c371de6a45338b0ab9ad27e9e410e8bdee98880d1e615844452ac) 0x1d13a92d8e4806298e8f8c662634a5c062fa46cbadd9d272e0f42453a12732 0x1e0baade8b28bac2b2f16a37b293d55c1c8c9f07de50e31c17b786c4b068d5;
S 0x7d893fb938ce5149a8dbff3916ae08a0374cd79a903e16fc0813a0412f47f4a 0x422abd6b60090f9c96c5eab0a7147fc6b2d2ecf17e800d7470668f2ee99f163 0x1b2378a26905a36aff11ca1fa0cbed9527c3ca5da2ed337804e0f86b0939b40 0xc60c2d2b6f4fbda4c84e5162cfc34b2e69b08e7fe144b114cf068176c4c020 0x7b1ea3a04b29ef55a3fcbf9d15053a4925bf8af7811f69da9160bbe1b40292f (-0x162b0b2bbea84ffa8a7bbe0d4266b6c97024a5e4229a855ef669528504a9c3b);
D 0x4e53d09fe4c7963d0e62fc7426e918da161363f3bb4a830eb3557de3891e72e 0xa615d2d7f812d95c3be23ab535cd63f3a698d164cd15cdb26a51779e7955fd 0x31ce8e97584b7a938736b77c915854b8402fb0117cd1a66a0f70c4fdcd035aa (-0x45659f56ed9dd38c3a2eb3b690246e4a4a91ec4384c90e5fcac3483ca1b59dc) 0x2fee5d24c23860d007394ad10a16178b6349ff4ea3e0ff541433cb65732d381 0x22233e2709322f46576205fadde67594fd41070ec1c2271118b52899977256a;
D 0x7de53c14f41fb5c1f93dc65dad3e3b5dc648a82adce08f91885e614843b78b4 0x7ab73cf193084a80a1dd16d8bae04acda6398e09d15ab72c9c063e2974f7d55 0x652d516c42e06bdf5a1e3dcbab5cc2e205c58495b2cc9f07e92e30f9b18afd3 0x5f73527bf81122ce66838ea2c9318d194316a704c96e7dca892689bad52e2f4 0x7bd353e203fb17b9e9b1cb46a788cc46e694a7fcf21a2c6c6eea798a79f1541 (-0x6e7d0ae2746b47b453694fdd9017b2276c2bcff43c12d27d072efbf4235cf5d);
D 0x774217f1e2a071b81b1bf93fe634de8e30a8bd45cd5e308d3231e9b306d5775 0x478c9e1394285fb25db7d9390b65290419835b60029e5fbe08bd54f768667b8 0x242e2d7d0cf5a6cc83e7e7e2e22ac166d627fd4c2ea03873ddfafb253ed5c5a (-0xa46a377aadf800cdafc99b81fc21286ea0b23858ff832e725cfd9b133b639ce) 0x6f1d06a6774ebe8618df9441468b097f07fb7fa8a37f1eca201e618d25d5917 0x2fac0b3ea6cdfc5d69c37eb350e8b830a7e47e1f2dfae60c590bc5b07122f94;
S 0x6bd857778d7ccf38bef5241efda3e1c4944444695b56d1453f123372eb90f55 0x59246f5840e6ecf1cf3fb0a87379da5979bc4be9c23138b7556b62d437c9e36 0x887b9c13bf65c084dfe6537efa56510acd8211519dd00545bf657441be9cd6 0x22366ae6cef90409b9d8eddaa785e799a0c4d430949d69a9bbd85ef722b2b8d 0x5add1fe34fcf22ec830a74083f84cbb5e3cce56f5cfceec1ef212c7327e3c81 (-0xed2a5262b1e6ad7b3698c24d4906071b255b16358aaaee023d089815ab7306);
D 0x69f4a36092141855da675103ef7c288947293419ff90ffc2d76312c74b85922 0x4c4f2f659c911c1de17d566708b75efbd7fe06982693ccc65fc0c3045e6160 0x7c5ca9f780472c38a0a12e3e4234feb68376bada6c1fa77b08ca3903760dd18 (-0xac1ed7a57306f2c96f847e501918a5ad98ee21ddbbee88ebd97bd165af5a555) 0x57b52f9a205e20b6337206fcc2e3211c7319e24348f31bb5500101984910ab8 0x45d795beaa832cb5b2377ad33f4a26a8590897fb0df79fff644fb1e1ddb007e;
D 0x692a29ba543ce9e7df0dced4691953517c0ab7899787518c657386575f4e21d 0x438c9de3d637b993c38b43a1b008c5cd1ee493bdd4fdb51f04e4046a0ef5916 0x6a33cd823f2f36a41cf910751191378a6bfae0066dad6411e81ac97d036cab8 0xcbd17a13370abff6de0bb6d21b98bc96f9ba41b6e84d86f6a2675dd0172cb6f 0x56673a592215a4365d116fbe2c09c6efd38198de0056a8c7b291a03a7531b73 (-0x339478323e34f4fd0e0200a4006b5d85bb450650570468339dff879062a636e);
D 0x131a707af2985d2f9492a8f894d894e293918125e62a591f7f27107e462f3e1 0x70e3a45bc23af58ba29066fe2907b729c32bc023ead02c293d79b1e07f81ce 0x18a7615c2a35a8985903eb04165ef5109f962429327e878056161c7338ee1bc (-0x4b3e2e99279c3808f189fcfa8f095927d9d63876b067fde677f3441e833423d) 0x2d9deda94cf682ccdc411af9657242367837577bbc7da0de0066b7463ab7c7 0x907419e6644857d921236431b4948cdc4692a3d1334ff2d9d59e8cd16fe1d4;
S 0x1da543bed0e87a39a783ebc5d29c3e6cd8151db789e8875760cd08d5e662e5b 0x5a349360204a7424dfc027145d26e18b102d43a5ce94ef5c08f86ea5eac0f1c 0x8baa01966d026530895cbc465b06f8e6967703bfd9c4a244c5b0244fa30ce3 (-0x5884d17d102944a7eb180ee91374bc87e75ac9bdc8fd26675daec208aabe6f) 0x6ddb8134276cdd78c78e80291956699b28e01e5f3be9f33ffae4e9c47973a5 (-0x13420ba0ddfb4bb25b4a0d010e3ecc69522c425a1730a001a89c1454f802d59);
D 0x5f5699cfa4e3e72701c7922f511707c5dc3ea019216a90acfaf9461217e935 0x6d34c0a30b4d934659dc793e98f8d015cfb3c9fffbfb881b3c4a2c0583d8e7c 0x51c84de31371a6bfe2e9a9886c6490e8024a927ad64bc9e8c06e678a2e62727 (-0xbde601304a9c953184b1920ef369d3fdaae9da6771b0de09e28528697ca5533) 0x4702c6e7a09b93ce974a6d7bb0a78b23249b3e002c3a5e8a4516e1a61d845 (-0xe26fc8b1c3f74d59851bac34e7fb3a1c29e632390ed3bb353f5563c36f2ea);
D 0x14c48131e279308697bc139670b29cc5ef83136ffcf2e8e0d77788fd80e420b 0x289b53c30bce781b29a5ad3dd08c3f20d3d80285dcf1bc4825a9028ba3692a4 0x49758e274d2c3e2d0e00351d7774c5869b78d583f1cd804ea8f9b21eab4bdae (-0xfcfa169d07ab27497903aab029f6567eab0e9d4195d61d56d449d1a9ef5ead7) 0x35e960bc1f21234bde9741b39b10254706b315147c26c30e8652de6f8bfcdd 0xb21492f12c05b4cb0988396f84bb74df80f475a488e85588bfd82f0f6f9d73;
A 0x66ab7f26ad8050f8860d59b40c366fc053c69dd4abbfbf0a4d3a6d837d810b0 0x597e15f0b5ea98bc642f0706f849babf8b5b4a8a0cf3f87335cfa71c59a493e 0x76c4acb1015c7403c877bcbec3555a9bcfa6b5f8902dec918601df1c3dc3eb0 0x7c064067356a02c2afb46f4b6df84f2e4cc0681a270a9487d138805d37b451 0x525a386bde2adf2ffdfe267e89fc63fb6ec2c6df7f7f76b8d652e618101cd54 (-0x2736323b8ece1bb7b113f0041acb2c2d398b53a8338d425a7c9524ee678263e);
D 0x7aeea3f93c4735a2b00d0e199f7fdde576b61280ae165785cb1aa0121b8571a 0x487cbca3d37ce25e6296a19d252555953df64ef0c7deb35949dbc9330007738 0x14198f977de107a176588b7f0af518b56e316bc5e170840e9415df6c855debc 0x286c4cbd31cb1c833e9b92f985175c2c41730fc7ca2da04b339430a19b31ab3 0x7610a57db3ce90e4af41d78b7f162eb96f23ddf3dd66269422c8fef4bcda4f0 0x1054fd68271f4d51ea39abcd06b96fe5af1295bf2abbb7c5e4d9a31a61d4130;
D 0x6c04e50714ec7ea30d924851b8712fc6dabdbd482fe424909fc37e78bf2f14c 0x5f9d74599b96823b2b9a556188fb1cda9eb471fda0ca85132b5ffb2797edfba 0x302881b02d6e640ae9146ee39534e8d99a87d20544e9122f740b2b6b53fffcb (-0x5939bd7e56fd4d18fc45c0dfbd9dc65de35394a21b52f7a1952d3d5c2c51d21) 0x5b2842abdd8bbafbddf2e8e2f4fb15d0dc10aad88a8396e4a4e5ee4c5a06066 (-0x13847d68eec0fb5d61c03a3e0b9d7853f6f9d9f276ac20002ddc9b2b063471f);
S 0x519056775366bbe3f756536ea298236416b6f76a02d0bbd7bd56087a6f5e5cf 0x502a88bae699c97faf268f3af6b7579ea32b39e8a771cc892f66cff5132f682 0x3cfdc54ddb322a5ebb7a1b8c00f5b435df54cd41cf55c7a7c8f025ea58f81d2 0x2935d4a47f9a459bcb11b39309a2a6f601af47ef223082d5bdf4296498ab726 0x33f95031cc7273d42a02985d5c03deed9df6371e29163cb41eec84e8c8c575b 0x9d824d31e4a2351af26b9edd864c1a167d61250a2f5a5f52fdf33ca4c92aab;
D 0x36e73ad27bcbabca528e7fbb8d2479afee6531fc5c448df309bfc4ddd956c90 0x4a5b20ff736e8b23f78d5f31b51aa8246319687c3688d9a6428fd1dbabf4656 0x4bb27c77e9640b4e7f2fffaf34ecacbeafd65dc590b5f1cfa8189f7c90d01fa (-0x624d30a75f741f9a91bd0fab12458051cd2b1c9faaef982aa3ba5ad6b0311cd) 0x178cbb580332c62ff891d801266fb58ebea2cf3cd991b4925b44c2bd0849da6 0x27dfebbd1c5c27562082fcb78bcbb90daecdcc889b37a571bb4bae866524f4;
D 0x7abfe24ed3a3c5002ee766cb7cd33ce5b2415c12b2286fd2c51973518534cf7 0x5dfe4d16e5df10427361718d06bbf4fb7e5a238c312a93a59799951fd354637 0x2a222c1bef9a09b325c5697e3dae5b2898114f082bac2398c636c3e410aaf68 0xf9a54829a8f877ed19f50b6905ec24734d8055afdf7510c9caa206d96cd1bf 0x75b6e70d36ce5733be7997560a12a9f5eeccf85b436a4a7d41b6641dc99c36e (-0x12d4f63a55d061aa0a220e24293aad967726e19f42e7dfaafc47d313fdb5f79);
S 0x2d4259165d493350a0697454e09184b363b8b0e5b5cba3fad0862a09f6f3e92 0x509970cd8489efa13054dd4b535324f4a05f1f0529c2050ba39852a9d43f74d 0x55becc4e649a27aea9acf1b7dab501cadb4538f7310448b231fbbe5d5859b48 0x164b3b47c44eac7ce98d1ee3026652777cb4995a549a6ab377127b3aeb364a3 0x1000c907d6a8c911bac6ad1b0e6b4f1b002c8f4295bc0cec63c02884a29fdf6 0x4bc66c5da51f08ef1d9b9ad2026687ac5f890c20d1a921c9ea3f719fa162c4;
D 0x2cdafbb004fd8aced623a1f0f8c2b7f072ce06c2f9c3091446335c4b2b5fb66 0x29bb52d8c12aa774ac4c40632ac9ab6be0f795a13c27feb90de5971c7e70954 0xc821ca2fc1a9447373a691fd8a40f58317cbde3bf5a3b96ee6e754f747dc2f (-0x5c28ff40f05d15630c7fed2cf3306ddd64104cb7ce09319b23f06f3a0d41a1c) 0xfb803ac41e4948db28cd22e20c3f9d6e9d67c8f020386f19155f604aae34b6 0xd9ed90429b094bfe4e09d020a24d2b2a5eb766063a3b517dea396bb6997cbf;
D 0x3aad21cc46b58db5d0cf5ab58e9e82e2e17f0845df32dc4c28537932d8b29bf 0x2cde548b148d18f1325d1a68e2a34abf6f5a60739c63eb4db9dfe3fc48d3aae 0x32373afcb36a67835669305a3b0c57479eb2ea9ddac14c0de820c449a21cc44 (-0x1d59796147bdfc64d17dd49f2beb486dad5029960fd2e76cedfac15a7016e8f) 0x1ae5d0ce8530456dd32dab9174a149e4cdb2bb12b18a3fa00f78a8a2ddd6f2b (-0x1701ae920c39411f73b2c122a3128329029baf0ab145de14d5f8574d2de499);
D 0x5e29632cff51a73df2c0c43a58fe06abaade7626f6e74aa02476e9eb9f378a2 0x392841d126a090b307ca612d52859f5ed6b2ccfe95125f8bab88909968e7f07 0x4731a45ee553a1284978c5da2a4be4eff8cdb6f99127f5cc4393e716d9d6fd9 0x1ab282ee65bc85601f6e3b6ce0a542cf7863fa429602406dd39b46e70005b43 0x4544d70becab2822c21002e6e89509ad28723fe6dc920ec4b2d665740bb5221 (-0x90a4372f528f5b4e8c95c96fc5cd8be7a243fc63630aeba7c06763b611346f);
S 0x15dbda90c930163622ab38d961995e3a56315291d496c15204f8367f5181eeb 0x3f567aee0617f06c1f859abd5b4a828ec7e29b3bef0f057da4d5afe631944d9 0x1a8a89cfa591c9c6bc204afa4bf56199c582383dc6f7bbe18271a0c60e1228d 0x47a0860820730305e5d8df9f53a5c25bfb2aef5600c69f4d833d4d5e49b707 0x3bb9d56deaa08df8a03efac9ec84007cc89f51159a0608d6466ef9dae0580f (-0x10e33022b0c4119ec74b5263bfa437c456b160113250f3dc29ce005ac0c62c);
D 0x63c15ad690f684d33ca973c31f48ebb30c9282da024f824b984ffbacf272840 0x72557c2bcde6814ec26e8946fd8105595caa00e5a88199e857353b3f79c693a 0x3ee62c4b6774ca4c62c239c8b4acd2d5c3181a8db9d399d7b11291ed9e2f54f (-0x34a795af44421430b5583cc51c34e9c4690c1cfd10fefd9b8d5a73bb85ea954) 0x4dbe3c9817c19fc221da0023f10499ea8dfc4f85217414176a84c640c051d14 (-0x27be43a670a7a55f9bf6d0c01ff371e2b59ac4ff80bda1165db87a3d303581c);
D 0x4ab2db9c6fc325c53f0e1de54d3010701fcb52e14040e885ad38cba94ddbc50 0x314eee17b036abdab1b22ea52080884471d1fd6184fad804e90d2b77a7e7098 0x5160e0525758316e678eba3de6f1f247cfdbe55d341c5993e8ba8af9862d476 (-0xe8f78f987c6329724bc4a19e544cf8bbb199c9f1744038dbb0f619699468a0d) 0x2b97c7d9251a87b10d77a7faa8d13ec484115727aeadcfe8126cbebc2ee55f4 0x25f2a6d1e4fd554c4e86fcbd6ebd8c8691db569b939b5b043777d4bf588e0db;
A 0x774d79d1e8e8b4cf5c8edc4530a4222c434046f508ce3a15b3b76c03a6c4b43 0x1c1fcc210c241ed325f35ea61cbd312af472ff3de275d252bfaae87462e5bf5 0x100eaa7ad8290009cd2d6488596b7ba43f9f33d7d6863eedca125ac2b2a0f08 0x111e1b7fc8570571e63be583cb6513c986dd264a691ac556ac3ca62b0e27793 0x6f323d67518d1bd30466388cd76c9f1bf153dd354a20960200c299f68b7b732 0x13bea41706847ed686ac77a30a3341ce4de48440481928ff70c9c4b0638442b;
D 0x3e24f444e1f9b48cec75a96d6b0a62a0548a7d33f5b951e614e4e1c390fc3a5 0x63ccb6a60815c61eb1ed63cb111ce64e2c74a0d38573d59f008559040f51f67 0x3b5e28887137e7cd242dba9500f8cc0d901503186c1212cb70504d40125ac12 (-0x2f258edb7d42b2e9afcdc4c6df454ad34b7334b8f7b6e0c935742e712eb91c) 0x1e2bd74df3cfc5b79fc859c7e8f1e12652209b8265de2c81df1ab912f88f108 (-0x22cc730290e3c7583ec6118f2cd9277e00429e10042bacfdc11b9f10af98994);
D 0x3db33056e9224eeaa6c323a8f4472fb9dc95add0f61a01f5ba2374024cbf697 0xf457abd44bb6bdc8bbb4b96bc5ad29d1e1a46053e74a0306c0c645e304149b 0x5c81161ad02fc3f3d182646fa82bfa790533a2f943967a1dd1f0496845fdc2d (-0xb033defd785ff8de9beb64a238c56ad63dbf5eb44e86e0ad94e49682750bd18) 0x1dbdc4ec1b8a28c9d5e2eaed152db4d4349c74b3cbee7309984bbf5141239a8 0x28bec796cfe29bc347249401bd2e6ab03b35cf745f94c5e7c9ddc60c3cbde15;
D 0x3f0c9f4941b2202ecc817155109334b4e132bd63fe146440961842bcb95d295 0x5460e4aaf15930cf0336dde16e17c3490102474e79f085ee082c3c4256e3a57 0x64dd3229e7708d6ae075b4eb5bf0c11ce47163876005a69201d3257b0cbbdaf 0x55aa04bfad7eb23ca1d51546fbec4c13913957e569936cbbc7b71ca6db05ed6 0x1f0e6e0ac09fd1f5b444c6ff93ce2a0c12277f288fbc08ba84b09653134672c (-0x220a4eb483ed92b4032d824feeeee872a808f028fac79fd51c26e2dfa53c848);
D 0x51395314e9a1d74d1ea6df1af58e3a04c4bc150bb2d5e8ddd67fb5141caeca 0x6478fa9594d34d04aeebf88722bad11adfe65dfcfa035d09074d094d170c718 0x17215d025508af0a1c22fd24300bb669e756f71750e598aa9179157563640a4 (-0x9ede3bb40888f15547829c7b8258a96fa35090668671131c849be3f34856088) 0x338aa6d2ac3e0a9c65134b9e982eb81aff527640efb5893cdbc0d2739fb9e (-0xa36730a7d49d6126217a60e263ef1b92a10562318b323ff22fbfbf5cc3c9d);
D 0x3f1171bf0ff163d413a61d7ddf471d79b2e076fa063ae92623da0918e8c41cb 0x578aa7382f176ef37de17735ab7c9e2e3d82f3441d4d8cb2298d07da4fad4dd 0x79006b8f11af839e2b5b915e6025f813a76fa08af685a2915b1674ac35a6d25 (-0xd5cd481d7cd6ad0bebfd90da2a63bd88318caa492545236be50106d15452aa9) 0x1f132e58af864f79098efaee9cb30ac9d6101615e8f51489fbbbc23f31453ec 0x65f102cbd4f23f3bbbfe2780e9c62d530cad97814114415648cc504cbb6200;
S 0x5050e267af4dab87d99636ff2ebe6324c68f88ae18082d09f27333cca487fc2 0x256b4850c898743d2453bf068b9aa64bed1063407257ba53ca33a9327a7354f 0x7df98c717c1e1d68bb0873f6cb523ff9f45c1193adaffbd94c4570a92aafab2 0x238392df5ad6c20df6f2f8869caa0a148ebee498ae1049d3f2e1edfbd4afc22 0x32654e1e2d32ae1c7954178909f21dcf507db17f18b2cc1a1276479aefc350e 0x1f734793ee23a8c31238a585579b8270b0de4f3d4e8206728e11c3d0b70f3c5;
D 0x63c1df1970a403b1ba07654cbda0c97b1071c9a6ee3d391b9d4d75be298c7ba 0x15016495f92b1bb95395065669952f1a40e84821fe1c391ce861873b5af15e4 0x775c15c16c788dc166d48b6b1ebc688d9be667df5d4444350d141b5a9e77d1c 0xa38a81c15f1ef00d1734fc023a7c9526b2107f88a8f39b5a8d2030eef119b84 0x4dbf0abfa7d00d36b9d225fa839462ad2ae4f4a9ad9b724d8edf8742bb532a2 0xccac26799faf47fc15fa21dfcf48b67a59faf36a14e4d0039662c88fa888f0;
D 0x5dc32cd8e1ae1d966b69307cd2fc2e27d2965a11112fbed39ecfd9385fbbe4e 0x5a6b2613a7a3c993589fef1da36e62eb431014dde1e27d79d9ed82631b275e 0xd292e8b6e8929516d2b430972444e804906dbbae37354567f394460553100e 0xa48670c3e0295ce3f16f214fa7af662892e1c9ec854cce9097a065b8ce833df 0x44aec6c5dc772b91b4e00ce0bf6eda0601d47e1f173f587404c2675f7f28c9e 0xb3f4f0700482e1f7fd6c2aac818abc5204fb63e04a1456ad4691bdc04193aa;
S 0x745cd6ea014d3d7e50021473a2c860d9c69a0cfde8c385c6c70fb3f5853bbb9 0x37c8e944cf47565713f525f09dad5698a6dccd31a9ff36dc959d91acda170f8 0x4363a3967120ec04d0d6ca8d1c62223c059dac1ea52a7bcea10c44191f0e06b (-0x16fe01ef0050e992210777a24c6f3aa6a76e3723c89532e9a7cb8647da88639) 0x69c888de7b95fdc3947e8435ed4a8acdafea1db879723b5a306d357799d6391 (-0x2d935e828d402c493a1a6f436cb69175b45af173e2e344d0a2cbd3977009ec3);
D 0x1306c96445a9182131cf4db3d8d7afd38594c730baf07611a89bf9a2b6fb1cd 0x1e37ea266579315da844e527a038c4e29c7ddc7aad0e86f0a5e14168657c0ad 0x5f8c3107e5308393ffdb0f9445736335cd2ab9a9428bd9b37f5df10ccd54ca6 (-0x34e6f17ec4532d6316e210e079b765a4dec3678e4425ce90e6de3800c786f63) 0x2d40425e2f1f452294487b0d4eeee545f2e0fbcdcfbb624968c0ce67a87b8c 0x3cce0e430f090d019c7146457f406ec67ba46a1c70d579d8a16212b3a4d9fe;
D 0x42d75a569f5c4d53dad69578db8dd8369fd885d94d9406708955e2915248f7e 0xec6536521643f90275fc2b5f53700ce39fc99f98569147328fd667e6c21537 0x33380ee534f03a188cd1c8500dca0cc8fce2ee98f65f072e191df953a5df43a 0x4e6329d6a371b43e380359b84d229f39e168e1be7e54c0cd935048bd07b08ac 0x22e77f7b0f189440ca9ef49a2daa66fb28ab6eca0952ce44235848a646c6b73 0x8108d6d314691c052c963b149b470aeecbf97ca70ec8ad51b0aa73e9d60d34;
D 0x6b0e0bafcd123e7b9b08b46ee92f7d394900b2ac21de3b109b54c9eb85b5e84 0x5b06c7234f775183f3ba7cc27f0d3bff8de0c5b58e8df8e92eaf41106f9e7f2 0x72b7995110845ed28367a8a0e81aad0805e5c524bcdf3f91e1dea1507595788 0x508f35ebc71364916fcbbdedb51c4b49c1b17cb5e78038cf85597a93a203e5c 0x59897d147a608469373f376be1b12976ad0a9de809e86224c47e289403f21b0 (-0x3fc63ec3e78ba83096b9e834b73012bf5985f58cb66fa6e4410556bae599e2e);
A 0x53a30a45855a9d2e691be202a10fedcffed17bb51e648b1e199f2b1783917b5 0x4c7170117d4b2c5c6029e7f465527719446b6fae2be32282175f84ee7084e4f 0x5bcc7efa94f16ef926175d831e9efc765711f17312a24e56f52d6b87a7f39a2 0x27426b81b9e450848fd0547d76e94fcb119a3408ab16236cf50b73d4e6230df 0x36a640fe52d428c4da6904eeeed1fa3b028f54c2a4f7ef0f6c165538985ffee 0x98769ce057a17a3ac626e303a6edd95b7ce6674771e25ac8c85cd46611b415;
D 0x2058cb22719581f0b6d41c9110f54149834589343209486a26be2aece2eece7 0x560b0618663875171f49b5a114dd0d9cb8b265f4f055028a4e2c05037beef4 0x3ae4ccfd4f97d4c552a4a38b4745f489b809680abe3f456f30ee82d5481149e (-0x5a8fb0cd240404bff5fce9c81eab99fe34c614333f340a4db8787b99a9802c8) 0x82ca329ca8638049be9ecf969275462f0d026d082b3af76001573ef0b22cdf 0x11f57c3776376f8bff968ce5e57601adfa8d4d97f37d551e3ddb35a48eba0dd;
D 0x2b03658ea3e3f14ed483121d7c43beaaa0a759dcf697f2f20fbbf01503ac11b 0xafa442f83e67890a8023661863d910850da0ef4baae2f9349b695b112bfc57 0x6736a7a44b282584551797a73b7fb7c0a0a1771c34fb6f94137e0db4698ac75 0x26e75574b7cf45d697ec34f669ae3b34c7b0815fe5e2ead3f082c32eb60cba3 0xe744852e9608e49bbc844e786da4ff0736af450ceb1e22877ad0fdd9c1de9a (-0x1e1bdb21629fbca7ee095c86c53d412342ec350db9c466172e29e2bf30cd84);
D 0x560daabd10466b267c92df6fd4bbf0757dcf29c1c9f5fff827e0e316fcd7310 0x5b81eee99b9ba68fd9ed0e7e027d13ea92ccd30109307475c10fb5884a7b963 0x925fd72beb0623b7fc600a5761d50acc9277d2af147b6ebe7fecf725ccd8b0 0x87f46fcb27b2820d825c3d18e2214902b9b49255757c9ec53927aecc3887bec 0x39da5ee3a005384ba9d17074cba8602da317ac52ba875863487ccbab457aeef (-0x3623bfe78022a410f83398d3aebcfa7c65d61af37a46426179bc0e4d0a9b9e5);
A 0x7961dafc2d6f1f87d0151c18509114eadaec7470305f4ebc6c30f2ba6db94c8 0x3e833d4d4617f41f2f282bfe3aeaea4bda976467a20c6ad98073446b1e87e96 0xb09be69ca0f9f95eda2a83883ce0c5856303280ab79d50f669f1df55cdc518 0x396ef7f69f26f374291ac276cf93ea7113e6705220a26efd55c03024619f6f7 0x731b4cd422bfdea96e4f4c8225e4c6d3071403d764681040d1a7f5044d3d47d 0x1b7eee834785f02162ac2e4ccf910d07f9dbf5b07f198d4e76f2213f328d660;
D 0x5e9295fe23a47d0acc62c92cdeeae38dcd348510b35ffe88bb04eaeea155b51 0x5f5b13f23235729b43df1f8b86547b32a622e6ee3df2700be64f40654bb4a7f 0x45a1fb6a306495284b4df3a627d18942cf8f0b2634043e2c6a63954c882602 (-0x4b476613140ff158699c2667b931f47903cbd3ac90a9c6181e9d1a48322367d) 0x45dff42c1fde89e112c6a9850ee444193c50333faee4923a5a52e40775067f6 (-0x18441e4e66d21dc45c8ac4120218d78548a74fe81f9812017cbc003c9a142d3);
D 0x25a4b2093a1abfb86f650bb80b1bbb90022657422e8b7759a70199f5a426b40 0x788f8f377217100ed6e0504c92ca54d86203cf67d288ed72600c6dbb8dc6ab3 0x7e2f5b5283d8e418537838831d9230fb263eaacea177e108956701307f93ef8 (-0xd28d09db82f1f426580a4333c33279726eb5385dc47e18cac9fb38eb4c65404) 0xb120ad684de058f0e0904f0f0147e267fea3a8bbbc11a06c7bcf3c179b904f (-0x76999eec1bf147ead5287797666bda65bbc15debfefc73e9844403caa72dfa);
S 0x6d89865598d1bc76548914134cb2a8aac7f827559069a9bfcc1b6f241f07cd2 0x131ce06db3e54a575cedcdb585583f86c61af959aa66adc58271cb51005bd1 0x3ae92c620921ceb2efe6206c8736d97b829a60f6d7cb4ad2114e2975e168a01 0x4cb100e8bdb463e80abacba74a16c250d8a69bd1c5e717e467960299ac5d40b 0x5dbccc8be47bc65e93ad47c529afa3fc2d14bec7726fc4328d12022177b85f6 0x662616221f7a1725841cfcb3a8fd0afa8919a4d87a549b5e92762d2b989e46b;
D 0xcb19301364a4290f2a9150d32c31b6ff080fb6026b66832fe652d721645f7b 0x46b9f4cfd10dc3eb6e976bff791d35fa8a35290aa9495d13e40233a6130cd1 0x5c8b202d7cb3214de1487d9f4859bd8a8396452cc748fbdc8eabee3d9eb449 0xba69cb66385d9b008e1298f5ec87308b23e19fb9748af7c641cb760e129912 0x14241e9725cda8e1aa78a5d3aa88b36c8fd59a1b4506c184394ec829a0c0a6 (-0x51e546644ef29d473fe960831b6f16f0561b250124add2c37f3568f5f494a);
D 0x359acb6b04cbae12fb07baebc4826e4c7f10ab46cdeecd8cf5e1620dad3fbe5 0x5e511261a36792f4e094935c275bab6310a3628c14884232831ad0c15ba059b 0x1597e186314fa7801c4354f0ec5d3a00bd1d62e15c96457efa0d0c6f164d27e 0x462f36331c850206c9ba7f9db5ca9f88f10d8121d1ac6f70e902091ccce8b6 0x1672eba75cc202c2f232e8b46037a9e97fd1704c4a5626fe18a5c57d578bb9c (-0x25a5b8920f67327a3778897115638cd234e8a09e9ba6f7d3a103184d7cc2179);
D 0x54fa5d6588b053073d2bd87151e0080c756086b17dc378007d32f08e1bed394 0x409bff91c50a285ab7c1cde082230c6c70e5604f131901bbb5e6aad25e55722 0x30dcd0180e9da8f080eae62372fe46374d3c2bca211c40a06980204f01c1c1a (-0xb3d2023e0035bd40e39f5d79dbfcd6ac9ba233b74f5f4ac638fe2617b7b2ddc) 0x386a844a5c2b3870731890fa85bcf4cba81ba0c95fb66f3c6e4caa39533eb38 0x13b8efae4830cc109e7025832600ef52dd013fb0c1bb64c6e4663bce80faa5c;
A 0x6e9ffb40d4c02b1df633c617c9e015d8353ad5ec7f10f75bf742a6f9c8ae81f 0x57d845e1870d12c3952e0d232781460b1a01b1dd1f4176447ebffb408890e86 0x3958f4b88acf2032de8f6543e652baf5964b4dcd0978c25a96dfde57f779d6e 0x1d18b88912ff522b5ac20a4bfac6a54e4241dcb765812c9b8e72db87673e3ad 0x5f9bbfcb8feb39f33d8363651ad730d32560ad5d212013d11b46539e431fe4f (-0x1414d6e7d86fc5ea9a520bbffde022e2fb684497b56c05d626e25820b818ea4);
D 0x70a92780c64620a0bf77d5e2a845bcf4dd294c34fa1c023bbcef2b6768357fe 0x4645f33380b5958535db93d4ff5a0fc4552939bd8a445ef546b5419a00b40e8 0x128243e41de0e584be241d266adc1977815d4aaea14bd2f3aaff5732299cc25 (-0x4fe906b0f5bfd8871e3bae4ccb4db6ba52e99874176798a45f05629ffcba025) 0x6328e4abb73743d53be9b3611a0d73f2111222b75beb2c7d87f5a27a3154210 0xf7740f5b20c995320d4add091821eecb9b9f2b2fd7befb80fec8d8d77b4b31;
D 0x4a6cf44323cff3534b1638a48f509ab994f477de75c432b4032d8ddc8dceef2 0x2fe0d0757a4f0054a23b23064aa11ee7a124cecee4b57393ee3f46f7c21ec8 0x6f184c4f3f7cbe01593b22fe333eabc7f5c52e1efa2bb86a13a386de06baf88 (-0x5e37d7b8a21a66f3897dbb542afcb1ca9b6bc09f2bf063c36dc2b9bdb3bb4cd) 0x2b46572ba4d4fba74d4c7e9f470c7035dfac67f6bd5a0d95809fa5f771e3c2c 0x271ed6201639e5e84694837a77c6f9feac0e4d94ae84706825e90d863568693;
D 0x61cce3a897ce187c002f8fcd92f88e9e60541c0a57396b3f6abd0c8dc099af1 0x46d577a1d975039ca0f30a223f08cb904dfbddf2bf7ce0eaf9ab43ad53a5c43 0x6175cf4d08acce3d1f2a1753769256b045aa7bb418868ed21341dda79d5f6f1 0xa98ec25e5b2a712f38162e9e9b64354972f5ca2a2e48983433e42bc6105a94f 0x4ab9d102c46115e9608e2b7136dd09fef18d9b0a9454dd47a690871b5fa3d0e (-0x33d5d6c45eddda7718fd09b7178c09050fe0c3dde00d68d3816393e0ac28544);
D 0x67bb688780616ca64ed680555a47d7899c172963813e972a4a3f15a61001824 0x2d89a1483d97e06357058d4d5e62df24f1431ae080bd091579b8d096e775ef3 0x483144b59c5f3886fb2bb00630e9dfca55307572c7e60afccd6a8412d3d51e 0x285e607aa2fb8c9471e5e4f8eacec1c9b74f168862c9ee47bac514cbba5f72c 0x5410ae9dd3e4a6e2182f144493c429fae270ca08e4e8af8ad4cde1c315aad97 0x14800fefa7d99faef57663ec4c6b594e9483ee63d3003ec2071dc517e815331;
A 0x472f1c75aade62905871140301735ec2fa3e93c2e54104352a39d3d00d84252 0x1cda415a581d162fc6c26bf7005f6a742c410f06f73f096728639ccbc97ef6c 0x5930edf9b0a8f0034bf8ef5b2069d431c1d27831ea2222f55cc55276fbdde04 0x81dd588b1da279d450a9b795d146d35aee153d3ef658978a9315a424197423 0x279654e9764c1740f26d83e3691e5991a4e874da3829b579d40e162073b441b 0x9476b50e234013d2b4eb82d670e52328cdcec1ec2a310f737f02522ba8d41c;
D 0x41df24aa2537e5ceed69d64f37b5ff0eb1ad5ce89c540178d4327b08ad9cbce 0x3b853fa8bb7bf271956cea82fbdfd6f5cd8b283cc4b80f37d7084046a0746f7 0x1f88216d3cf2194381db955ee8d2eb39410d6403bb79f4458a8b9c123495216 0x4849d90ca22d483022abcc1a76f09e3133aba7bffc691ac51bead94d27b25bf 0x21e6263e99270afd35a2b1e0a2fe5bbe94f38f59a661972ca3790a75a4533f5 (-0xfc84bd3b691e915b15a21c5eea40d3483cd213fb5f1720d7ca535f8fdddaf4);
D 0x579d3afebf21dbba42d557be7c2f8f5ee30c3b2a5538013df9b97522b6f4a7c 0x36c0aaf5c34d83baa4de1d0a69e2a55bb4300fa2f3cc5b954806be6d57926c3 0x2996a84c9123802630b66d8bf28e9cffa8a150ddbeff9455e9b2e4fcb285ae6 (-0x27dd9fbe85e150a2bb4f0362593ea9d7d55f11b32279b66a7b783535df9c9a4) 0x3bf87d551fefbd7722a38e3d8d8f1e892c8c86fd833cced0f4f1ee7abac375f 0x343786298cabc8765dbc23f6513650ff9dfc3455a64baf26c898e4ce40f434;
D 0x26e9d25a7ab9891dd2ebaca1a4dc968aa3be2b8c6eba7a8e1b70b8f6ec33459 0x5758231703a74d8e0b4fa03a51a3ef1ac3260d10bace486e059612b2ded1ab8 0x580f2c03fdaff3b7c0909b6d88cb5f697ace56972d09b6e8f7051140a2eee64 (-0x2cf9b1a81678bff86a75b0e74bca8285580eb13c03d543838bc581eaf3cc5b0) 0xbd48006e3f6176d96bd2a31bc735ca0458e47e140983d174643e4a6d6adeb3 (-0x9e880f216786c90ad66cf87353b19b15c9c6d6771dcb47ecbfa61f3cd3dd77);
D 0x3860415d0e4990be2c77437e57eb4d1c6c09c3493ffc5f4bf089145e252bad9 0x64e6e588785302c8a680b07cc920cb3a646b89bf42a76a8921ea8fdef9bb5fb 0x4d433e699490ca28df971cac49c91dee4b83c47e4d1aa2233077d3af73207f1 (-0x653c6df5c0521d3fe6f046cd5d0f79c048abd43bafd3c65ad9522c6c4643739) 0x18d48193997692f43c176fc0c2a5afb49c50de9d695bd62a9174c4913ee2086 (-0x5f8a70fd21cebb6e31593ce74eff8bd0bfb5f87190538cca77cbbbeca74020);
S 0x428485f9675c4ccb3ff614b82fd4fd16ed32d0ac2553d9b3b5c7933aa208d22 0x25f5fe306af91cb53f256172b8880df3a6dd1b165b7b81aa4b8f22b4c04f485 0x75d76e2de4969eb2e34c5a93241768a8eca7bf884135c60a98d6b75b643321f 0x245b094cfc6940f18671f020c307179e22fcaa67195428c4a40d59ca37aab72 0x2291335e11368e06cec47eda02ee779a67ce72d8735fc3ba797c66bb969fe3a 0x20b56198ed86e34d42b6b173961ca631d3fb033055170b4fc7743359fde759c;
D 0x75209d304beb6654b6707f209fe60c998b8b10e3c9100b72a9e4811821306be 0x376a412122522e01d338ddf368d2a37d9182f36ba40c0690e05f8d72e3acaeb 0x2b5bbd486929ee789e11ba2f3c09230c2f68c09e15963c5f04952106dc647a5 0xb5e3b3714c8d7c62b0831bb1bcdc2f1fc4cd5655102840029c2ce640d9072b8 0x6b2da7aba3f8d858db78afd4e6b91ad5ac5456fed541b158f793c51321cc10f (-0xff8b7aff3d3d3ba867a1d189f66f0d753f6bfbce102d458f9ec60a0096fd78);
D 0x252cdf898eed479f34d29e3423f6e8db4cc5bc720c5ce78cb05f91ef68505c 0x224acd2ab98e264a9a0b6c8af717a8c7bcf7aa103e0867fe2151ab163697135 0x7fdb9c332887263a3bcae92d7bc7849e38bda8ecd5b747134ffe6f5cd7d303d (-0x466601865f144f63c9a2b400876f3f6a752aa8e8ed605024b55b53ff6a07c94) 0xacc00f6bb955249af904393dc43404b9dee7327208e9a01234656c1a9a05 0x6227f38964422860609a06a6f5ac1e48b2d394f29b07238649dd36ff1a586;
A 0x213f2513a1d0be33ffc179c592c51416f40fdb51cc5ce8798d6ed91325fb389 0x18bbaa19a960981679d22c36d98913f5ae93e2698e739bc8d523ef32f430d9f 0x2cdd07836fd57c1da85c135fbcd68e22630236a16efc61aa0eae255be51f371 0xdeb624c1fa5ffed8c90607935ccf6c1e00205b501f71af57ec7170421df25 0x8a2ae44a980480b35dc2d87686bbf91a0b94ab3be2033378f0f9e9e5a690b3 0x27b9e428009792e8566fcfc3ed14c996af2411c56919d0db1bed9d75080998;
D 0x367091871f4898cc54a3004eea1879608a198a6dbf3c5edde76bf1813048700 0x969c988d936ea131a0317784400968133481d4da580a0b858f8f63cd06c714 0x1fc415ddbdc29e8f1924b2692bff07659ba347186b7177ee2de43f50531a153 0x17d30e5efbed8130311eccdc2102febd019f8763f03ab8893011d5d446e93bc 0x17275dc95450b14b184ceba35df1bd372b0f9cae5d3c9702780eed453a41dae 0x68403cc83052319ad16c4b42beee2c850347cf386251f0c5adcab870dbb83c;
D 0x15fc5b0f25712760f8e5cd63ed6d43aa513abbba5d4ce026a7d3c4bb6d62e9c 0x534357df54abdeaa5674849ec310eb9d755ff956ce9ef9eda9a332a8bfaf8e2 0x12acd24e047f223f5e1a48315387039976cca1371d77dbade8958ce94e49f9d 0x8d5f125cddf9fed86063831a8c01ee53e6bb1f5ba6437207810a05fdfa2477 0x3c6bf67c4b419768e9f9f283dc88721ef7261d5aaf4695d88c5aed9f43e806 (-0xcaf4a33d2ce941be6f01bb720e7dccc381e87ed686ad107c033b13ee0b9e78);
S 0x57c3e155d46dfe5b3544f79fd5e26c8e2ca9de38d0458d08362d385f6eef70 0x6030074ed967528b9044139d00f994fb6763535528fdeb8974879ee92a578ff 0x7224b2b4516610ea83deca0501a0689e261603a78e0bcb8e69e26744720a8b2 0x23dfca2201a2ba15adcd32a5ee587788a76d8e46f09b28b2a22c96f401e6c4 0x3c2d7212caf8bcc74e98d84cf4928843d32b5d87048e33834bc22dc4e0f55 (-0x8dca691c71d436f6a4886690f814de6beffec9dbca900881ab964c3ae67ff);
D 0x3991be6ef687ea8abe134dc1fbede7d50754d42bff2f7bf4d9975cf39af234d 0x533a513fc8929be6bdbcbc39893812d5406dec802c036e571d3c268e6f2f51e 0x14b733db9ce53e54809752e2e6a00b51f4899fd1fdeff02e0a2d1034245c3b1 (-0x722bb902f2a94b8a7bc0dc8b151aee86426354e19d9b330fa69584c8a9002f0) 0x19e4738d624964b102e44923c8f53b9b4aefbb1b5c6af9c502437c985e63e0d 0x5d42cb2e8ec98f854b8752965aba0ed057853eef3e7c5493a4188ac322014a;
D 0x687431c6f9a9d7d91fde694148eb939e6ea6e32bf9c91a466f8da933d0d274a 0x5e48ed988621de30d390286041dedee7e676f734fcf3e8660ad4bd61672b49b 0x32894ea85f16974fc3bafe71f37b22eede12a12730ab2ac04658c2fe8d5fdac (-0x8089e362202f093ecd2ed90475aacd9cdc0839269bb13fe54104680f2503e39) 0x553d3a5da1b40e5740e4d87844326f6e423e471a4c85bf3659f9bba6333028d (-0x905e89292751987835a1234dd01dffad08e92da49da8a87139f9e3de8e267f);
A 0x1f70702de56157ad291bb6197bdc4d712b10e06e0fc661f4b62aa52ac4c631b 0x5b94eaf441a00e674639c3006b5ba90b9ab2b3e3177a9c3f9fcc0e85f6a6bcf 0x3b56bac728adf318ac0d1fad10e81c3f4b41a9c22dcf36917a0d721ffa295ae 0xf8ed95fb08c2598fcb07f1bbb00e19d3b93ec6e83a00988bb33225ee8dd37e 0x7b8d91aedbcf2a0231348e9eed4492271cfbefb1d516756315caf90744f4a5 0xa9f88492c42696c7db8651dc783925741eab1d6d144c6b6f4e23f461dfe2a;
D 0x5c182c79d04df74f222dab18d11e56989012176d38d56e63a33ae74778db262 0x73690624e85b52f0933cc4e61d3a7f5f6b0d2b4dec4a2ac42ebbb94291aae13 0xac83e97408b5e07b8faed703ae11a702875c987245869849a2e1fec043406b (-0x6f302bbc0d9d252f933c5c4c1f38c8492f5ba17f0c2c3d7678542dcce2b82ec) 0x4242c47fd8926354715873c23aeca2f22090260902cc8ae72e2adb03050e7d3 (-0x1124f397a797795a891b115c3a8348184704198d02a5eef2ede64d29ee67c21);
D 0x50c9db09d297db4f783c4043a14b5cc4840915cad1f342a02d4025d35f80149 0x6c08ebacf5cd24d23c2061efae76cb33ec09c359158cf34a49d9916fbb794e2 0x6c27db5a42f9ab38d6b60dc10122ac27a09fe51eb9be62288979f906f249c2a (-0x12a90d79ab1907f3bd5b75cd6269fb255af5f7d3f484920606fe0e046e81ed36) 0x32fd901fa8ead4045b586ca8292a329e02644c57ff0d8f63c09a3956984b5c9 0x4a7b213862140ead39bce190aaca443566d3fb2753d4f6759fd654b16b8364;
S 0x5e0bde31c703cc09e00c226aeb7f7d2e212c3c2ff191da831c75a0f61ccf4de 0x212ac650dbf9f7e9444f3b43e2a8fee14e2d0ad95d42b4c409d0d792545b35 0x3c913b32160b009817bb02de212865f4fa25b5e20144b7cd789d95621defe59 0x38a4734a516303f7d907b201ba85310e32d5381492be95a40947d8699525287 0x45196f72ce9085737ccfc7f12c31159a5bc93867312d7a8be98183110b830a3 0x4ddaa992895cc97ba44fd860cc791ab10ebf3d9f16ddf6dd5eb6598e8dd4d83;
D 0x4f366797552544f57856c4dfd78bd0ccb79daa204f9cf2574798810702d5557 0x41731a273e2f51a5a027bc20a3649e6dc6af0dff58c1a22439cc729419964de 0x14cd7255703e679f37c1002ce7d23723f39a9b3aae7deebbc9ff5064b290c2a 0x4adcf94f10db5c0fb7ab83986122bac5ff7fdf27252aa16c85f588d17edcf92 0x31053efe88a0181c1c10129baf2f6d3d394cd2b9d99560a1a0c64bad6c6c849 (-0x273873b6ae0d99b661bb75fbdc665be9ac789cd5fbb6b3a8a42093d8c686ff2);
D 0x56c44963714ceca5513dd913d558ec08b5995158f07e02ab30ed4a2fa90cfcf 0x6ed60ba06066575d112e69d1d51b88623fdcaa3e830d0519bd611b4076e79a 0x2ecb2f31f874f41da3b55738e5055fd3e58534d650fc42f3f460df8c68c7813 (-0x48320b86ff85b1d3048758c48e67772dd02de085a9be1883c77ffe9ba00f9a1) 0x3ad0ef9e8ade139348ab58a7300dcc5c19185cff5bd6fd680621258f9e6b80b 0x27ab96e70bf46ad0e9e522eb7ebba4bfa5eacd1c2d1ac174586bc019ab7c1bf;
A 0x5c0ac4edff7b8b3ee0485d34b4fadd29b37df763b6f2c077d319558421809c6 0x728b3ef3efd25ce9c5bab352f442551772684fd1471b7e60faec0e018f4630e 0x26a930cdda99c5059d85aa397694e5805a68036e31359be12583ee38963692c (-0x1144e1ee2fa7318124cd2f1c6595afeebaffeb963ef3c4ae90ae957b6c8e114) 0x422f7bfe136c1bdbed327f21f2064fa6076f39df1c85c252fe53be4cad06ab2 (-0x4d6285a0d1f361dea9e422cd617a20da27c4fe56147fd067a21e42fa53470f7);
D 0x4303089e65a139f98f6b0942df2750c9ee03ead166bfde024fd0bec1900b7cb 0x17c6b2ca69e31c0ee15cdfd98bf646954c576332eb9bbb1b800a8ad4bd38d8 0x6ba1d2068bc262393e77ba9220663de4f3f906ef1492372ad8793ef9f45596d (-0x10b06ea9d742741ea72ad0ed2b58f8e9f29e63afa6411763db2d162c2f05ca85) 0x23152d183a661caccace7fd3918dc664d0c0d4350ab98b94fefe7e3234ddc05 0x3b3070d01c4afedae43e88ae5aa847661af8f6fdb4757782a345574a4425039;
D 0x53537795c6f74385d6e5064b3bfe870490a71606bc020645b3aae1495fecc69 0x345d7de0740e49a5dab96fb05ebd9599630c6b7330eda83d04d814f3b26823c 0x4c2e2f810e45ea377a4fcaa0bfe0deb5e79a7c3eaef3ae56dc9d02eacabd906 0x8c14fb838b0ced0231fed6d9a8cb71fcb3e33d0a8403fee5ff9dc7d510770a9 0x363e7583c3ffe1000e06e2e42d84e00ef1c731fa71afa6363d7ad8f98f28f25 (-0x211f1f9b8047464a2445bb10a82ff15b2b836459e0e99aee178344638d3fc77);
A 0x32c746b52f731cc58e8f0dae9da851c1f75c3456d1f4c85ffd486994fe6a434 0x1f95c58d2d0e888c09f2291c580b321ae28099ebc8a1e53cb836f51fdf5b37 0x7c142c8a582c5d56d8329771ac8359408b1e4b0795f35b8d1324bce53757134 0x87f972424c0f1ba826fc347ad4541c6ed4a8717afc091546a5c16567064a41 0x1424e57b8f80a49b29dbc438766e722b9d7301e79ac9454522ee97b6a78fd53 0x13fd909b327452c30b24e1ea490989f5e3939ebb35522bad16f1ebeb8cfd6ca;
D 0x7ea029563323e2e7b70d7049d1c868e393c1227ab45d4e38670e5176887663b 0x60a1cc7fdf2579e2768f01fdbc8927d0bb7b039aeae8a8df5fdd63736613358 0x2d5524df850ad30bb6bd4208747e7470e1fc5073b86fcc10e404cbf5ea3f2bc 0xf566d892f3bfb625b324705c19dd67d04ad080751d7833f3d0d3a139e392c84 0x7d4419c91987f2350cf946d6b17d331464f6a5dcbeb4eeef819f32574ed27d3 (-0x5da43f8453dc2abd5c8a20e4ac3489c661acb4b70403ddd25612ffdff8a598b);
D 0x4c3d15855d0da169ba66701926cbf953d512e0cd8651eda59d99fa14bd0e185 0x1879fa8732593575f0d8dc2d14ef1ba2f08b199075681e194e1f0c29f73a640 0x6b52ec8d7abd56d96adc00d7577341f45367c2585f86f2b7fd0454006002d05 (-0xa4da1da19b5df4b57fa9720a9434ca0ec20b19c6208fc32eaae2cd2186bdb69) 0x2d68a6b4e53b2dc704acff3bc9d62884b1fe4463c8d324137ef50ac20950229 0x2afa13c76d6337f277d15802740274e44a17c71d104ddc9686af9aa794845b7;
D 0x47640b441fc85535c1ea7648c8e1b851a8c5489d3fed28a2e4b059de12fcd67 0x529c037c973f49cb296a7b91f4852bb5e1804eb28565d4d3d4cbf99e35bcff2 0x59051dffd7cd3150e6c0ce14289c5e2fba01f1cdf0920b5239f8ca64529bebe 0x69ad2c5240c9a6cd29a48dcf84aad77dab8e1c54c2d337e8303af2f91af0c05 0x27d14ab12eb1c0f065c46a5136f1844a96bcf3e6775b9f8d0066532fc5d02ff (-0x206c50acfaf785d813bd813788e9d6a41e1910b3f3802447b97fc52a0a43c61);
D 0x185363d2b896c88c5fc0b539077b0ce006672cd5e67c36cc4f6c830c8410c16 0x757b9f0aabba54b0e40872ad64eea7b7333f8c213a17869cd52718634ecaacc 0x2f9ac22064c8c650c4d1c2bb3dda46c75127d2abbb27be6ab17766a82cbaf3e (-0x7e1bff24880abf61c07ec87a68ec7f8e263ec521012369510fc595e775529a5) 0x49f7bc2c8593f26de3ad6e1ca463a5c023e48799a23d41fa48aaef8819c734 (-0x6a0a55bdd6df700fc8846475c75087932c9ea2c05bf304ebe49ad4760474b8);
A 0x6581ebf4b5152af0dc62bd1c63bab207ca4075504e7b7297bd9765747d04dfe 0x6178c77c576b399eca549522480174d5eac5dc3cf50ccccede639b0a60fb8f8 0x74e6bbefe5ced7d3be7db0bc9e6552ec646d55fb86ce6a7a297592d7bfa4aae 0x44a0efb1f5eb0ac249f91ebf2986ce0cb48e1c65b01057c62cc1617cf2612dd 0x507f8c3d79f8c280b4cc0746e58af347bffd7fa46423e513f9176a314429476 0xfde8dd70570ed0b012c22df118ec8a9028e325a0b08f8fc1e113e67d6eba6c;
D 0x663d6a371d49840c1e25b13742004b8428f3e11cf3afb4fe196dce12a57e736 0x7aa5e2e17cf033f455a3a5400c0c5f1d18ddd4b9b407c506a8d7041e5a08012 0x6efac7500f4d402655c5828f57561fdcb2a67c41f777e09ef10e3146a79266a (-0x23ec977ad3a0313675e852d4083c9730fa4e2d6766b922f2b630e209d7ecb59) 0x51a9febf6b58741496f07dffd780fc4daa20142c31a6bac23d84f557dc68d62 (-0x141c0637d9ee0f206b44f9014d1991ff38dcd58f29310d1eb8a7ff8e07be694);
D 0x1776900d7eea280414623c7aa6847467ba20452cc43d5a2ec16c08003c2f5b9 0x299e1f3b00c06a9d381f0111e37d1bfe4c8a347acc4a32d753804c2c95f26e0 0x177cd794df8a51cfec2025f183d9c3d433981a1e4064133d615f59e4838013f (-0x137df76a3185d08b70a544c4b106adada0fd0874d764eb31c49d10db246d9a99) 0x44d0997149c850d3a947ba358f69ca08ae218970e59c8d3d1279f5199f78ad 0xeda73818f081cd8a3a7a8e3a8e57881ca02d23672357091efac2c470c92779;
D 0x361c615b828c496e83784d10ed95a8741e92f2b44472be0d51af77e83cc51d2 0x399e7702be4a4d683d4d0eafc91b716cc00de7e86af0d391add97cb4a92d24e 0x2b3fe432aa443b697e5d500607f7c2187e24b74f89e104790906fbc2417d46d (-0x14bc6dc60f63ae87bba0cc14f26e5f9c22573111578197cd58715ce7d61e2a5) 0x16dff870183c6e6d87408ec30a3b2c1794d9aa817998e6e5438e4368f857036 (-0x6c3b1472abd4a210267058a292b3ec5669fc4b0ac4e29b91e49b3fa79843e8);
A 0x152a6e05a1861c3985a2468afd716ce475633818726d970109b57895dff49d0 0x28fbee2bd03b1d6d095d8293538b8f49f8dfbd9186994a86368885c0600bbc6 0x1d6430277f5e4d7a57ac7401037710aad4167479089fe98c16cecced9fe877f 0x4693e2538fc38ae7195392b9a1c5481a591c06c410ea17e622b60a2036b6f2 0x37ffa2a6b43af1be0765531234d1eee187d611f218de34e8137d2227d0eb22 0x2c02e14928485c016826b6a2cba07997ae88a7b1364b7066728ee63a80ba94;
D 0x19729ac613594b58479779cdf803a99d8309f75072d467ad6942a66036d58fb 0x1f5a7e03e3f2e7c24da9e244d20c732850443c0f4abb74fe4b761f301761111 0x6427fb89f4303eec64d513af7f3cdb2c8aba9eb9f9631c3b8dea2513061575b (-0x1bae69c6549b4b659f593f3d099f2a96f475a78a5e5e8677d5e4abaa2c59463) 0x50f2b11cb872984ad7571a00ea1a46dccc530888559b9477109023b933fd7c 0x1ea2754d1d2bf6098558edeab293cd43f642cffa41318bc643788fe254b89d;
D 0x21f3134faccc21af74b682f8a0478ab4aec81e1824c641145fc8308be64f161 0x5a038a7ba08a3a7c51929fd01a8a3b54a48aba284e7a4ad305aa492b25096e5 0x3bcf883ff334580468a6f6f5643f6059ffa75b7603625592228380326f6bc3b 0x1e16c4b00450c61ec7acdf01945dfceda499989cb8eea44800c7f71a6e7bf92 0x90123906a8731400b3138ec4d5433f86d4c010803ff7964a20f1b0be230dba (-0xf8efafe254f37fb900f6661f349ee16419fe9a0d534fa2fb3e5da3b0f15cea);
D 0x5790fcdac98f44609421ac9baecc05368f686d2a70530b52865173e3b9bda13 0x25beadf407a5e79afd0094690970044136137907105d49ee4bac236ea91eabe 0x25fe350efa49782db29ada7ca71fcc3cd948432860a86807bfa422188be77f6 (-0x6c11540da9e2e59899e82b21cac81d99e7bacc3e6b29a764a64b248318d0dca) 0x3be7bbf449c33269c0dd6ea2a90017900ccba7b5bea5bdbac1c353e3f9344e1 0x23c2029d2c385fffa39bc7b29d9cabe4767c6193e184674df208f54baa7c8b4;
D 0x14cf59ac32252a4bd7e24e131792b3706dd2479d64ed451992093c9881457 0x4a7b90f230d3bfe9ae67634c45bfa945a005be12b17027dffc219f558407e50 0x2ecad300c8fb7dfa43198353589ba7ad8fb3c28c7fc41a7755ab46b12b1f9e (-0x2157af5343d8d82c89e5481289ad7ad7e87d263ee2063d77d8865f8d9dfb5d9) 0x3621bea17702ac7d6a1dec956031c6fbfc626c5196aaca75cd0ea961c5 (-0x5f906ab8f7ff375447a987bb9f0f85bd960bb5fd1a5308e4f3232b552632);
D 0x5c677fd4f3bc237950be204e8410036d0950a6463e348ee173df9bdbacecd27 0x6d73b7165f7fa1646778846ddd4d1d9a063c2960adfc1d1cb9d3aecdab4cca9 0x676ed20dec80ed4f5ca11cd70bd64b72315e84716cb3ab74d5ebdac08c108fa (-0x7dcd10f08bf91bbace3dd83db14ea843fdf5e56088118a7794226b5ace9dcdd) 0x42b51b7258c0ab2c402c96bddd727f1af615d4857a66f24a43683e9eff5b2a8 (-0x193ea2051616a8f78be1fe275e7b1524ef80ba8f140fb39c2b7855771ff5d27);
A 0x6078e6861aedd2e850547193cdbd0520bbb7a039e292e08a9995c930996de62 0x39872c0f6592a38ad4aef0d681e9edeea517411c50560e34546da588e37c14 0x5714e96bd9d9311d24c2678429771aaea31824e9608813ead49189fd9c75d6a 0x3b2bebd84f0e38ccac08ff90dfec4a1f125844ac781fa3666c8f7cdd85c0283 0x48b5cbfb0301b6f47f52a1f2af812f7351a8c6abc5997ab6b35e2fa132a04fd 0x4fc86f750589a76be89293b0b000ca67210c444e08c36499518b5fe67c7a8a6;
D 0x466e4dbd4da8dad0a837e3b28b99b1404af9282d78b6b15deec25d50b12d781 0x29b52081e8e4507f14445d6c9ebd2e4fd61475e79327ea61e1dae2bc7606a02 0x27ce3997008a51e48b916514f87ab0f6b202091a10fbbddbd28281a72884722 0x5f87642fedc3a5ef9990153f3b5656d8272cee3ae9bb019aebec21301ea0c23 0x26c10414d98502a0a17cd563501691b3714f13cd91865676b31fd1b40668cd7 (-0x14f886d07472b075c2f294193329c9b001c60a4418463ad53e8a2e2a9d26b7a);
D 0x50b6e73eb0ab18e069d218163b8b7a09c1549fbcc39665252d71c83c820d26a 0x65d829df5749709bedfa1dc2fb1aff43c8c003b628811641a6a035ee0e26354 0x51c9085f8dd161d6928ee108a2fca2e1f8506083c1cefc4d9510ee1a18dc647 0x96e6ee0490da4076fbfe271f77fc13edc508c943164da5c4164e70f9ddb81b 0x32e5a66998e0a998c1d36ba1de290dbf76bb9c5ffb67ac29b7875c077cedc8c (-0x25ebd45064b7e16610497c9ca16740eb474e193a28839972aeeb10e7cac8d5d);
D 0x18a2998b1665ecd809def2095b325dd85635e499b114a93779175fc9054bc3b 0x3e7eb0a1265db548277275fdb0ae1222228d235c9b0cfba2a3f6c1b98b02e0 0x31b7b3544b745533dead4a4df30f70f95bbfcfbc67ce19ff94c6b9b15bdc1c0 (-0xd39e812e235bcbc0d70a5c7bc955b244c94b109a1ca72ec8b4297f8e3648df7) 0x4bdc82188a60374c6c18737f280b4ef663f912baf83414299df476f5ceec11 0x12d9755319f84b6598f6fbd9cae0cf531c7b1a1b9b0ad55f9c8dbbc6abce2b5;
S 0x7f7e20ce83c40d93dc9ed82ca0eb27fd295e13ea2cc07a0dd4e6b89ac183596 0x37f41901d74adcbc5cacb3da7d4609b00211b912c286df66f5913fd58496d6c 0x5d8020cec4493d43f2d9a80ca363b598350299cb6f7a3eb3110e331f0a90dcf (-0x1aee02656ffddd94ae110711bb74756a9be612f4c4d4452099dd588334b20fb) 0x7efcc5626c7502f0f93c36dd77c0ceeae0855f18298a5d9365e008ccc3f33ce (-0x33d75ef019ed2395b73fc2288bfe040cef7fc308441e14044e021f583283997);
D 0x260e946c7506ac8db597d7bb05612b9fa2548f9377c33fd8eba806b1fccfd16 0x756c3d7fa92b0338f4fbdcb86067451af7ddbf05dd30c0de2876faaacd3da91 0x7a933959708a303d7352929de2c150f304c91abf8aa844c0a669890be393a61 (-0x11c7649e21efa63dc7d82480fd759dd776f7dbe70a6841cd8fbd331dcd5eb1d) 0xb50a9c98950ba572cb22be8298b7f7c68d75cc268c04c60123422e4bddc87b (-0x1246ab4057d4ca78d49f968867db5defabe2c3568aebe815cb9e93235213a5e);
D 0x5ed155253c131687b21156306f9ebabd5ad6a501d3e565ee62e7329f35e22d4 0x7c689ef39ba8a063d24fae0a96e639a6b9b45252904587e601ad338996a705f 0x26d532f56e5d39606f8e2f28866729738dc388f4e42b31e6542ebfb78765afa (-0x8d8f8bca54ffd402cd84b51bd132342a579231ea18cdb8dce06d89b515d5dbc) 0x463ccb66f677b575d0a1e352bf6a8587787cea5f2bce705bdd3c6161d5ada0f (-0x52cc44de658b366379b306f776e395100cca5bbc4e2f2acf0e26fbaeecfff3);
S 0x4dc586f3f4522799759efdaf523a4be029d664f833c454101db8058b9d3bc00 0x3fec31f309dea1de4a0fae85525a65f990638704e10a9c2579ac1fd616f7b33 0x1519dfcde4d0129305c74d19ac5ca79e24a8445b3387b8b37a1391662b171e8 0x38c9fa4fc7fe9723283f7373ece9bc897bcf8c709d091cb521929eeb65d34e7 0x2f40d72f77277ca199492661eecdc7b5b9fcee7a64acc2eb74d2215adf244a4 0x24c030d7a45b6d9988cb2ae517b3853d44b8f929c97f8c010851e2f5028831e;
D 0x567a119b1b5f771149b1ccbed7d1b9081fe9b2abf15281ff60881596e5582e8 0x3852f9d81a35d77624fe500f3fc4f2805139173874212138173d01280c4d7c5 0x57097a1822937541c13b0a7e261a653d8a47713badf25081e63773e24a02122 (-0x43419b2d3525664ab605f896caa7ad7cd2c46febac6ec69f91cfe4c092e0ffc) 0x3a6c7c11fee064b7ba2342b14d784f2f413342d2f494bf5f2c71a524d5ca415 0x52230c7214f55e5683830492f503b4751f985cd21fe410aac2fcbd41d664a6;
D 0x54a0486a083c61302d65059294543b7485e92e95b8c0874d71f2155b7627241 0x12578d345378e49b4d52cc2df5c6543e65f60cba6f476bdd8e018a23cdf0f1e 0x344fba40ef9e6d03a38ce56e4478f0c95501514783106a2599fb72b18cae9bc 0x28bbf9367381f865383a0d89f6262155914e60711bb135f058df03cde4da278 0x37f327c05cdb7724e1306e9740fc9a3a3ed0a71e11bfbbeaa28cd975c5935d9 0x191c8f102ae82440acc08922722e7a52fe74e32902443df4e13ca2d84354589;
D 0x6cacceca9aec15f7af5bef5bcb16ae66d0db01c7c297a7b09286ce62857fc21 0x68638c6d7b06aae7fcaf4dda439c4f70b783094e73f39d79293c2cd1156e75d 0x48f4c90acd75a090ec81700c3143fd49a62eb2066cf742864053b44e98fcf74 0x50f136cc89827fa290c82ba0c0f678c2c6427a2a65041c9870cb87548c8cbeb 0x5c448642f40422228b5177360c4b790d8d59f238b5b6092992c8c421ba9f6a8 (-0x490e4a7ab000ab0651635d606743e706d121b80278b6c4482cfd639b4149d4f);
S 0x1b98ba31dc722f573348aca6332bb341eebc90609aefc6ef34c046c4d55c0f2 0x388cf68f30563cd1c0cd6b16bc931c115c4626f472499c7a0400fb87c81a851 0x2a11262afb9b63e45cd72aa39baccabba0fb444ad09b5af3df37b07ad86df45 0xfd5b8a1e494b8bb472748dece2485c3ecc86d3fc79eff22f939ce55e10dd63 0x5f324c84e44b734b0b8e03074d14b6834f1327963c99ea9128fee9ef03854c 0xa5058055009caab6436121cc0845335441915f8fe41df318925a9c94c3ea9f;
D 0x54d22e674f637939759e303b8147350f9181699aba742e77f2dc62c2ff6492c 0x79a01ecc2f5cf0c1cb9ebc00b07478b6e1729c9878a940811c6dc972b364820 0x3dfcf247281cea8d082925e109d60c38171b1a0450bbf61ccd0e8e4972f7c71 (-0x1333301198e033072d1fea7a64fce32b88e96bc593f86decb28c0f99897232c) 0x38353607ec01a17b324c397abb96d695349904cd24e90d18e0696e6b94086ce (-0x2b1f6d6d73ab7ebcd12288667e6c54ce55de130636603e04172b6805f3dda4a);
D 0x34eb9ed549e712363c4c7b8f778ad19bb32575214aacd432feabb79281e7caa 0x336be96ff00c25c1f2e338f9f62d65a83895fb8ce8d66c28c55780897a0639c 0x2236a42067e53375f39407c84c509d56cb10e4fe4893842cbfe5016eebbb52e (-0x12772cc1ab4d83454d1fe76aae58bcb0687b1bfbed88ee95a93857927f5b4ded) 0x15e122c7484f0cef06635907b6a5e1a1437f551d745b99f20208e13a6802d08 0x1d0670a4de5c3cdc0a4a9399015df933a68022131d0bbde5d64c2d87dc67e09;
D 0xbc59ab34ed2344ca2545d5fb49ef0fe4af165ea60564358739cff0c1fd0d34 0x149145f4e9b23db33b5de03828496b6fef41dec7aadf5b7f004acb0c73d5284 0x6d53a88c9350972d809821031e5fcda11217b4672d642e24ae2efb272dce5da (-0x37ae03e350fb8fe77dfcbf39f53fb0139e38c0fa9eb90eaee3f5d388fb1ce81) 0x11527a5bc7330dc4d22216d8428d1365f9bd70100dd70b394ac4c98af838d4 0x2d66bd6735408e7e8c447f627a764f15ed9032f45a9bf6dbc993ecf71d15d8;
S 0x40d7cad9eb8dcbca5a66851508be70feb3c0bc19c9038da44691531188c6645 0x4bc2736814e7bf69fe1da82a74011e21409821d5bf5cd295dbd888436b928e6 0x1d630372171d02f1da56f9653254297b799eb25c6cfc4aa0070db78e3f428c7 (-0x54188e83466ebff46a663cf0d9738a1f152b1a856b2e5d9ec5ad45ddb769d7) 0x20d936a6a11a5e57121300331d39a7cfcd5cfbbf6d251b47246a5d62d18c365 (-0x1bf5a2cb7fb78f6c4aa862bd3fb125dd146eb62d965aa59054df0282834e30b);
D 0x68d13708ddb901af0d14bc29016e38b8534c5af0abcc74163df0f0962116318 0x21b80f10f9180a52df45c20b1e0fa85760f6a60f42acd4e8025a5f296ba60aa 0x59fd06cb49fc9f77bd264a877745e4e6a8bdb6a6084b6b304206735d8aa4bbf (-0x56641db6ccdcf1bca33049a913b4065807a064038421d3974fd847a251e7c9d) 0x55d54f6438ea5157c4443ed6f1ccc53e2f3e2b30921a1540c9661c1ab5edfca 0x226d2891fd6a94354cd95dc1f28e54bd584b98e4ac0e1c5772a02860eaf851a;
D 0x27a4518935cadd22bac674e61d2c38f4362c71449dbf2a61ee94971053c177e 0x4fa051ae3808543f99034fbd6d2396b6d35e3d9b09516c99abf45a05dcad52d 0x3634499bd79ace653ac0c1dfe75bdf96061b2687dec329284bf3906830adeff 0x1d1769da3ada8f0b9aa86c4bb8d13b20dbe45f146e181cce0c6c6375e2f0f57 0xc46f4a0c051b1a7b8c4498e4cf17ab1a887f901d0941c794df6ebc65f84b83 (-0xe37b31f72af95d5c168b65fc0ceaa45bc6e960b070e76c342a979badfa4838);
D 0x5ea45a155f48e974d3afce47e65bdbf730acdebc0b0806a990214b0dbaa2638 0x699eb4788bded279d72a42147c8fe8344e7bc81d0b163d53aa3e5e71f13efdc 0x1f00ee27afbd4693b1691fb355492a502be09a66bc64539b90353486d920624 (-0x44720a79391ed2096689f22ccf786fd94af09b3968fb61af6af312e67f67a2c) 0x45fa37567a1d52b531ba59cd1b7d1a3db2f14c3254501d075276a52bd6b120a (-0x133830c65d590352c0317870e53fdf1e8277838c08646bb829c05297fc6b56b);
A 0x7656a8d8984749a683769414acf6029fa8c29ac9f91f300bdb83514d74cbd22 0x320fc8d97ebf6f9fadad62cc4489b5d01ec6aec9fdef44bd77728f05cd01b7b 0x69424d9e225df150ad010695d894bda48bae62deccdf725dca423b1ec9bb342 0x450a5c71f0548f9e61e091aa93d4454a80f8ebcf0ad0a2e8b58f7607a00625f 0x6d6801fb1a8a0ceb443634770190d5149ce302dccc88a6ae4b2519caec35d63 0x335d5e86877cc67513b7d82fa00ee4ca75a5b00ecb9a71e6f311f4c0a6c187c;
D 0x42d2144bc2066e6ed547bda2bd9c032d7c5f4a1c5939b92d62a45726fa7ef40 0x38d8aaa9052e0c833ddddfc0ec58ec438ce91e6776de078ff6e6d323aca06e3 0xce050897101f3501c8655fdc469fab29429df7958bfb137c602acb084813b8 0x3328de6667e86eae9d550beffdb1acae6b3e8013a5f4aed78a06978ea3155b4 0x22e1fdb8bbe3202b0f8a3201da6419c19e4b4a872a8e660fbdfe59090ae5227 (-0x38ab714e10f2074e1b86d8fa353005c10c77074d0423fc0a93e49b6efcb8fa);
D 0x78f43552701f80fef2efb2bc062e3f1062d175211af71d89045999ba4b78262 0x548c48d167f0e2c3a3929456db1d5eca60b8322de149d7f94d0af9782879490 0x37c28e32d77455a81ae85b47f8b7722395de1918a72466d276352c1eabc9ee8 (-0x3367534f2f006ca04159eed3e7cd1dcccf669f45480b959941182b1b2fc4efc) 0x724bb5e5f2bd02f91404a9ab1089b1dbcd10bd8b332d20d2f331f4942680b2e (-0x1a2d3e359064f29f8adb1bf3225d7823e31e9b102c7499b4a863ac2c631c8da);
S 0x467d9b3a64900cf77e014e87a37afa306e01c635a1dc2feb8333a41db9f1295 0x3f48b30d909daa4ce9c25021bd6db33b764fb9e5410dbdbc5aa7e4ec29946f9 0x660b271ba369d4be7b45964832c2bc33c42883ba035c04ca3d47bda56982bcd 0x1d8553c26f888ad99d39bdcaac43975e8e4b1489bd7d860f327bdbe0f9bf837 0x26d1dd09c8497d65d832af7d5dfcd411d902f88918b34fd570d14daf60a9f66 0xbb5d3b0e5b188ba77323a6b359ef7f4349c8e214bf74150404f8f3939bfc2e;
D 0x3f9ec7da0bb06fcd70fc63a8ffb169de93f3f81ee1d3a59d641f399c46d626a 0x569f272454d9269cafe99a950cec19edec64c6c65939d99062fc66186f8ed66 0x5cc7da8d1cb732580d54b89e96f3f1c157865bf04fcd998a9dc3e82cd7100de 0x792f80acb1077c4abfefae09b1270f0d212b3a490ec810eec6ef938431df30 0x1f9f11b13dd7f9277a12ae11c19711e8cea5d1f2b3f07bcaa9bc92437edd88c (-0xb99804aaa8a359ac24951789e9f8b5ed7a3bf487c80bcea09f879961c2cfcd);
D 0x12c7a1d004e96d2409e0a88c5348e33b6b028d579da8b70f6c356922c7bbc91 0x41efb9783ef17e2fd4536f94d0234348d83f4f108918a73841ccf1b6f330a20 0x7bf0d8478c34b4ebfb09b7a37f892d9221d20606f7e21bb57f4ed6c91e995f1 (-0x94a249fcc37354cfcfcb165489070f7c7b35527a2de80548c245798f4b50271) 0x2c15cdc70bf8ae6d1522fff2bbe81070efc2219db9cb7c47f8ea2619166535 0x308ee4efa6e8167e9b1dabacdc4617c0718b3e20d770c4deceed49a5448bd7;
D 0x79b20c710887806143829c762c59a69dd3bfe84703dc67fe800070a3ddfb023 0x6dc7edbdfec8913ae245434dd1a5e4040e5670f2e73c1a8a83b92c2e3dd35d3 0x9572b7752f0ccc837de1081095154e715c14e99eb4ec4690b4a2ccce869612 0x85c67ad77d3e5929aca0d6b49e2f8eb895f21937c9067fdfd3d106ecc74d3e5 0x73b397304fb57c098c67d44a592d3905097de8149d50f34df9ad92741e6dab6 (-0x29af5e559d08b392e2586cd56793316b381e44fbd217ea8c2e436f709ac357c);
A 0x79fec5daafb6e50e76d545ccb93ad634192f4a4775582aaf6674ef8cc28ccc8 0x52976fd92b2086ce40e2f859ef42b92e977d8fd839ddb568da48fbb8a80326c 0x6810cbd9a51547704e5853de10a2b60b8159615421bf0c7aba9c91d8f7e9bae 0x4b23c15488ad5451071fbe7d581a4524140b60c292907a0e40fd57d8af12915 0x7445a92be1f3c073c74f37d9b6003024f532b5190c0a35ac44550552aae2437 0x19e9f54337d4984b17b6c6e9f97d67cb6997feb169610b975f790102d738ab8;
D 0x1af5c62d11d852f84be0e7ff0f590601223fc015b657a67f1bfff87cc8bea8c 0x2ef6c0c99b9c01a1c358a73c346d206e2d526d8437dc33337c93318a6a6cc92 0x45b4f6a9b018e31baad3049375392c3f893e4fe7f5ede83705bba70c75d1445 (-0x7409ba0f8865113266b5ea18e15843d151772eaaa8b2538234be53debc2ba61) 0x5adb06c269bb0da3b86565d079b29dc44998c43eb52cb35e193f5fef450b26 0x7810c475730c99cf8ef9f362abf126cd35f08c1bbcbe16605fd9f5007f4745;
D 0x495fecb01ca303a530f97832a058cae004f56e20ed27033379da2552f3bb435 0x1999f7f62b58f09221005183f45e61d12da8e4054c1bf2cb0f8157062fd1ce4 0x16852776eb540cfa91024daa03b91fdc5bc950b842c295292c88c61b140a354 0x1c3941059bb998f19230a997243699ba6a22fc2c751946d41d6d726446662c5 0x2a0fb1dbebbecdb057da98255c1be26aa894762c4666a54a4e73da854fddcf1 0xc3eece619950bcf4e71a27f4107db2858668fb83cc421ba16e5cb94823ff6d;
A 0x48a64994381205bb12cea68b7c449cc635458928e9f7ca1fcaaaa0216d28f64 0x61432de437481ac78eddac6051d21cc95ce57f918131bf49fb858dff47c7862 0x7db1b14f7fa9601b57d721be765541e71eefa42e28c8afe965763aa5d01792d (-0x30818bb1cd68682b9fe4e2210363a4dfc743a4919d4ac6bbcea0557090230d) 0x293beacdc1d1707003d4b7bd89b49b551b0a8139ca7e70dc6713f889fa37a00 (-0x28ac46f9533a3e37a225564819075116ef907d07e1f2ca939584938e9793bb9);
D 0x114e04c575d5c61c7296ea60f9f2597619c1c1f578f60d56bd2bbc4cd01937a 0x689c739b80eafcc2294b7459e51a19bf19069e7493baaef70ddd672a7519eef 0x45246094f271e6eff8ccf366bda1c3c842986ffadb32c34f59572f8223991ab (-0xbbbb7167dd319ab2bf6a75ba1e2dd0e261e6004127824e45cc8d0059bb8e3a9) 0x256e8d24421ed1e874ec94b5275ebf42454d5fa41dc8d41be30cd14f9ec671 (-0xfe55eef3cf674e92c411f8e69e10248c9540fb438c1c1e2b1d0e42d7f610a);
D 0x6d121408358c58b90ce3dc26f96f5c37b104297a14f97ff839c24c8101f1f7d 0x7dda55bdaf0d4757317f21be7ad2e92ab2e1a7da01214ee3d8c8ed5f55d96c6 0x67b540ed4ca0794faaf4b2d5a534524f0356bc185483763e9eecf4c1530b092 (-0x8aa774e79b7433f3008aeda3316970ea9b88bccba62faff39c29ac752d3fe66) 0x5cf0ccaba0a4a71141f884d75024e0890243a70e55f27432190074d0024ae65 (-0x1219b297f02e1391eaaa33a2d8a9cbb23ba8a447a7f18503647601d394e4f38);
S 0x1b157ee6e4ca8f4cc61be6d7b1fa897a72eff4ea0cd4b7afbf1a15b5534a25 0x642063e3e148a94dd74534ce171ae68d703def21fc48267ad8526cbaa086699 0x12fd07c04cb6d2c461a0ec46822f1dce7e917b4860be7d17cf3bac7b36204b9 0x141514fa5f2af7b3413b6e1a03397c3cd8e365c03625fe4f7cd1d736d90dbb 0x5bb15258a18b9cdd63cd7c29891e77e2cc84975f74033bda9cd612cd9c30 0x5718b07115022826acfe2cf3b32b4493e4b8395f39bfd1a50a68f2a414336;
D 0x4d737535f9ae5cd22030c3376fb278ccdb2d03c7329cc94c6e94ab47175cf6e 0x627fdb27a4186c91ec6ad8383c165e1c0b4ce84cf68c6c908ed738adda43465 0x4b1c703598b02290186910cf2e37623dbcf0f5b00c3ff4a82f12dbfbc801fc7 (-0xd3fd3e0f1012d4314cc9b3887de5dd65cf38fb42ae3451cb75651ed05119958) 0x2edd5129f8b72fcd6f1e58cee5d17ee459f48df5adef1b13624c0e42cea11ad 0xfc09f9828f2d230eff798b82e1a6ab68f74963444ee54805b7b194d8779d8;
D 0x7b25883c516732004afb8ab8ee29dcfd62b426d3cd30db862d4f6836667e5de 0x34dfac76976db92e7c9a123427699b318e969db373572ce7ebdf88ce844f810 0x5594d281d46e843d29560f065870b6d0206edbd3d08cc7537c61e368a83b02e (-0x52de21e60e672f666d0d3c36e5cac62832c88fccb327ffb5697522a5d306c68) 0x767a2cd54051ac2d836bf0f6ac968ea5b30265bba09ef13c429fee90b7d8baa 0x2be54dbb530fd813b8fd245b607b33b29637f7386fdf908d385c19cd6bd8ac1;
A 0x78e5ab5c709bedfa7851aca145a6328a7c4b9396de593f3c5a2b9d1df1d05fd 0x77620e114935f2c2d6aa805465f7322601f690a1c01a3c6bd2bd5004fbdaeeb 0x2ee5dad0f8d85c681da8e73575b6d0ccaa2706a5fb8bceb3aa25d97b5d96ce6 0x14b6c5105884889f2320d1e0e53ce4d6cc0e044d6b1c9e29ca6b3e8e041571f 0x72303d655f508ad5625e20731ec2a180da60945642ec8517f56f9ba202f6544 (-0x3ed191cddc0bb14efa1e7bff9e722ca2cb3244387279f61bdc606a15a0b1a83);
D 0x566e49f160e47e05a0d1b3d703550b27f4911cdb027a9bc5915be3610c0bdf9 0x10228a25461b5333ef867b436d8b4dd5555c3ca20c01303ba09c595370edf7e 0x7c1bd175158a5fdd7f0f37f9c02f5862b4fe1bec151bf63ca1c9670cfe14e36 (-0x10eb428891cbb9c8eca4ab6cda28dace5519aa3230c24412151fa51774c56fc0) 0x3a5c92639bc8ab47ea906bf5a3c10b7b5edbe7d58dd7d2644defa52cbef5edd 0x45b7a2dcdde37b5f11ca30f05fe8bcc088cdcdeecf8979a4a65336bed307ee9;
D 0x5046fa7f3e55faf791224770b2322dbdba51fc9283c693111a678f5014ce5c 0xeadf54a1a3ff10487a2e6fd6ad4e1bc6032a5b67d1ea81045b4c74fe3d8b41 0x69649a6f6b257226eb88bda749f80b96e8856a3956e95ef797cb61e41bdae49 0x3a0c30e4e8ebb5704c11e3e5e665445390df365ca6b58d61e16359f190d8c3 0x3258e07af3513152a4a52898ee05b0a3a9eccdb94e76cf89abdd2f85ce6d3 0xe9aba388624ed2e7e17bcda3e3cfe8364d03533af81185dc9c7e70285f6d;
A 0x69cbab4d77d570c75c43e1195a74c098a1f4078521af5bb9cdb5902eef9ea9d 0xc717c8ee6601e3f21429f36f701f7705bc190db958df9f70e34bf3a60501b5 0x4a1836c5e184449cb4b3f48b36db30bb41f76e30287f54cc6bb0cade40b4d97 (-0xd712afe1e2d0c2d5d59021cf8f179322c55e1f4c05c14add78dd824f93142f) 0x5771691d5793705fe109423e45099b2c1d48f5c8706df166e0ba2b5bae70789 0x1d929ef2d348a9bd4cd4c0a02d9f88ab7389c6d566ac38f1b0e52093c956fc;
D 0x760a1f88a0e4b9c89cb56365b08f32ea640dba19f69f3ec76e6e78118480b86 0x76228d698baa913477e9683d2b374ec81c836c8dd372184086f28dedd8131e6 0xbbf49f7edc71442c8459e4293c5504c64e66860d594a4377b5f5719bfb8d1 0x8507595bbcd5de479feb1008c48fc534bc089e8ad5df6f3e6bbf2f042317628 0x6cdaaaf0ddc3992511e10b251379852dc985adef26d094cd24746b5725994d4 (-0x6177976894869932945bbf9ccd746c2adf8091861162fb56a5be9a984a65b0e);
D 0x792f1595e8ecf66f03e17e796ac3486cc7d1d45761651a3cf5fa83e33f756dc 0x6a7f721352d455a38038c527f2bb72ee1ae433f07dff7572bb003f74bb54870 0x3a815733be2cbf540f48fe5f5300b25a59985968eeab74bd21151fe1c91744a (-0x145b355666beeccd85f4987c95df2c6383fcef40e186a7da9f55e8f053917cb5) 0x72bb16214a1aeefabfb501b4fe24e2621785e489237dd24db14f86f5b48e0d4 0xb0477b1eeea87410d5b861cd15d4d2f50d16a4f5c3f5e3cbf8167b5833184d;
S 0x3e3e66537d08a519bc3330de4534bb2103f77d9806275606a6efa5544535e1a 0x26ef3505a789af51d7186b7b284eef8f408006e5503af330640f847179dafff 0x3b7f31df8385d95ecd6c9882fbe53a4da3a5ce7f9cd18f68613952c9cc7ccd3 0x24bda7deb7bd59c3deebbe19f3e77ddea488136c186d9677cf1e8bacc2ae473 0x1e44918c53cec5caf604a319f6ff4fd9123e88bc71cfe813c58709dcadc526b 0x20dacd7333c5079789cdf386355ab95528abffe8926564674a61b84aba8b85d;
D 0x77bb86347edc6ec8aec3759ebae5bbb7eae2edf6fde16e0aa5f1d7872fed5d6 0x27a834315eb7ff4959e6d156cc1215d206c007779e4cc119b7d92f39e8913b7 0x7e12b0b45259b1089addab9de1e81632e41b4b91711b9e5a50d6b6a00b39f6e 0x4bc7819a17aac242561dce51dd7393dd0e1d45070be8752430a53977a47aec0 0x6fffc04449fa8847f0a3276121cb462bcc49df2357723e503d7653dd1815b2f (-0xad0c41652b734c1ecbd42a7ecbb53a78f12d04904b4d4bda91f4620c8e011);
D 0x7accbad282273be5170830803a1bb5115dc44f8ae79b9f10d26a2fee4f7286c 0x1f52510a68c391e729e947ff680da0c1d8738af25d3ec3724e2becb01037542 0x35887f77b23ecbb96c431a390b56305a8823cb24583a4485f6bb8bdd3af4d48 0xcd0ad5ea7539bd4cfb94503e17f2e616c11c3eeb168544e18bdb118517cde5c 0x75cf8b95d7c6cab6e03e7877d34c893eecd2173ecf55a0c9298303d28b450e0 0x7ff318dabfc07d6e96e78bb5e6e283016488b7c66ea0dc64b0f4b997a134a6;
D 0x5efe8971938d8844d5cdd734e9f66bb94619ba31ae6100a86817278b6b1945c 0x4caf6d9732c174f06b5a0685cfe39b4c0a4e8ab182c5752ac220a923fe98372 0x3f4677e3a404bd2e390e1a633acc85d761b3da5fad48324b304655c1d5a1de9 0x38772755a7f46c4c04335b22faa3f85056c26576556a3e65807f216a9269cb3 0x467fd408df0efde64343eedcd5b26c4aeeb21e74a00a958cfce78390b42131a (-0x21aa9671f4c442644db2066c092110b132fee5f9af6fcc784d09bb77b1a4471)].
Definition last_step : step := D 0x1de5637fb060a595451e96c0183cdb9fb977eb5724674268cf5384883d316f4 0x1ef15c18599971b7beced415a40f0c7deacfd9b0d1819e03d723d8bc943cfca 0x5668060aa49730b7be4801df46ec62de53ecd11abe43a32873000c36e8dc1f (-0x6c450edd5a15c28ddbc5f6e33254b5f568deb9a9c009df487226052ba028c25) 0x6fb8c2c2e26e8ffb9d8db548db6c941d737b6b26d22945fdfb0e1c473001e2 0xaaf0990ad48ebd232f41694d8509c065696f7c6342da2778706fb50a94b218.
(** from G to 47 G, and from ((n+1)/2) G to its multiple by 47 *)
Definition chain_47 : list step := [
D 0x3a2fcd28a5ba01b5ed8a1c16da45138f4df4fb7b845bbfcea5295bbfad92610 0x759ca09377679ecd535a81e83039658bf40959283187c654c5416f439403cf5 0x6f524a3400e7708d5c01a28598ad272e7455aa88778b19f93b562d7a9646c41 (-0x1187d1ebc54b986d33a220c02ae50481356d9894489cfa75dc735092a2a2a4d) 0x1a7363c6c8de85ae23f9fdbf572dd7ebaf798cbeb0ba81510607fdd0100e477 (-0x2765f8d4c01faa52de0f3b1ce8711e71c95bfc3e5541bfa7622af07dfbb7d10);
A 0x6cf0c2920ee397f0694583ed7f69354bb1d1da806bf5813ca714a251ad09c9a 0x411494b501a98abd8262b0da1351e17899a0c4ef23dd2f96fec5ba847310b20 0x7e1b3ebac08924d2c26f409549191fcf94f3bf6f301ed3553e22dfb802f0686 0x49c386a6c13763b63698fc5d8aade5782703260b4740dedae55dfabced44fbc 0x5cb80d31449b48e64d92c412ca38de6b526185ae28b11cbabe6a629d856f4c5 0x2cb598f417bc2212e0fb279f4c64266a61ea82b51276a733ada5f8ed4fe535b;
D 0x4c8be4a29d5a8fc327fafbe3013979acf3090dbaf029737d9c0cb3034ac115b 0x1efc3d7c9649900fcbd03f578a8248d095bc4b6a13b3c25f9886ef971ff96fa 0x694e4dce951394737cf62c7ab0946d5a64940f7b9e573f4324c1d6ce9c4d991 0x338f41268bad862897775df33148d9374ad4ff563be51cb4eafa1378c292343 0x2dc6b865446d6a3063e09630189aaf31002dd4aeafe21242402088a4b13891f 0x1463b71ee31a73f499b02bedf8175463111abab95d850a03db3a4d768deef6b;
D 0x71be678d0fb530b3e214f5a967cfeac8a7ae6a4a87316850eeedefe32dd6c1e 0x66276b22edf076517b8fa9287280242555afda9ed00e78eedc9f99be8542aa3 0x587d4c16426bc2b24c41319ca321cc7325359ad3c9bc465e30eb9078a5c002a 0xa4a7028c007320abf51a3b3eabc737a944fac8744ded8f90197fefcb0cd918f 0x65134a10ce482bcb9fb5104fdaa44a995089c556c98c77a6feef9b8c521faed (-0x3f3dfbf7c95363be7ec489316dc82667d10c471a59a8eab09f75af27b3a7389);
D 0x3de13dc9424cfe1b8f50c0b5030e03cbaa53abb572bd068b48809fd1b94bb35 0xd94dc52f39a3342889b7d871ca2cafbca3d1d673b94f1dd167ae28e626f23b 0x200d25ac8ef06553423dd4353328fbcac4c2772c45904c063e9f1e897103e10 (-0x9f05c2378341edc403aa4cbfa65d2c1311133674b218bd4b435d65197503df8) 0x1dea3b3f28918843ca16d0df044b25940ef1247413b584dbf70d547755f3178 0x2ad1b46f42f75f9e27e5fdbf5bb678efca920fe5cb32674fb226455ee44674e;
D 0x771226ad91f66be182e40731fb70a54d93ab1ac03741672cae969d260314e68 0x7cea09b63e12689e9b223309da7c2ad3ccba2fa8c9025b871f6fb207b5e8f9c 0x4e650755644140f52eb94b953f0acd303c96cd64f028d4e05868ab9ff8ac5a5 0x374ecb7eafaca65d72062c70e54d2e6625485d80d1dfe9962fb872fecfd6034 0x6ec3c27da7e73701cb6b2c9d5130b88dd89d155fc2019f32be49f7ad427162e (-0x6790f9d0f2bfdee86b1b5bf4533ec267468274342462260dee87de9a6b7811d);
S 0x206685e6aa2da296d7bb72dc3fd8422046306572d41c3ae9eeb3cc844b807e6 0x4b0819002982c66824e4c8ca744fb8d48a080c478957efa1c80ae112379031c 0xbd3291a533ada02d77cfafd1fc9257c9cbf3d6bb4f1e8e2f0c42e4f43f1fcf 0x17c96fdf8f1e1c685b61ccc1661184e795f8fbf53f20c1880480bee2fc372e8 0x833951148c903486acbd60125c180c4c218d526db13295520c892022c30022 0xca07067fea7dfef6d7bdbbb7408487a3e799a6a34c58ffb7f5c3e04749d58c].
Definition chain_47_half : list step := [
D 0x1de5637fb060a595451e96c0183cdb9fb977eb5724674268cf5384883d316f4 0x1ef15c18599971b7beced415a40f0c7deacfd9b0d1819e03d723d8bc943cfca 0x5668060aa49730b7be4801df46ec62de53ecd11abe43a32873000c36e8dc1f (-0x6c450edd5a15c28ddbc5f6e33254b5f568deb9a9c009df487226052ba028c25) 0x6fb8c2c2e26e8ffb9d8db548db6c941d737b6b26d22945fdfb0e1c473001e2 0xaaf0990ad48ebd232f41694d8509c065696f7c6342da2778706fb50a94b218;
A 0x2e1c6f5799305a6a27fa8a012eaf5c36b8838c2150d4705c6a5cf9bcef5fc41 0x13a2542d8dd9736d76d5f9e673661a552ebe813a49ea030f773f201fb3065f1 0x78c8e154f916f666a8efd74de51c67b5ea7b9f586871c7cbf453b582316ae16 (-0x107a77a78ae43ece1d4739294375de2909c68213ddf7d9e966d87fd7642bbde) 0x109c76580d47efa36092c5bfb831707af8fc5f5519979f7e9e328eb649c4f54 0x412e9f862b34cb73713008bdac45c2bae8789fd36dec1de61efe97ffccf1e4;
D 0x68cd148b329d8a674bf922c2148c6c0d4837a910730fa2bb46d78f1fb90e11c 0x411494b501a98abd8262b0da1351e17899a0c4ef23dd2f96fec5ba847310b20 0x7e1b3ebac08924d2c26f409549191fcf94f3bf6f301ed3553e22dfb802f0686 0xbcc07bd0e0d6fb911af06a7ba7e31ece88776a0504b27a36dc11e779cd09a2c 0x55ce89f6036a380214dbbdd51fb3326268d796bb252f28f240b4276afe0640e (-0x2535a4b4ad285b937f11596913fabc62ad9e8226cd27b50ca4a0be183f614c0);
D 0x4c8be4a29d5a8fc327fafbe3013979acf3090dbaf029737d9c0cb3034ac115b 0x1efc3d7c9649900fcbd03f578a8248d095bc4b6a13b3c25f9886ef971ff96fa 0x694e4dce951394737cf62c7ab0946d5a64940f7b9e573f4324c1d6ce9c4d991 0x338f41268bad862897775df33148d9374ad4ff563be51cb4eafa1378c292343 0x2dc6b865446d6a3063e09630189aaf31002dd4aeafe21242402088a4b13891f 0x1463b71ee31a73f499b02bedf8175463111abab95d850a03db3a4d768deef6b;
D 0x71be678d0fb530b3e214f5a967cfeac8a7ae6a4a87316850eeedefe32dd6c1e 0x66276b22edf076517b8fa9287280242555afda9ed00e78eedc9f99be8542aa3 0x587d4c16426bc2b24c41319ca321cc7325359ad3c9bc465e30eb9078a5c002a 0xa4a7028c007320abf51a3b3eabc737a944fac8744ded8f90197fefcb0cd918f 0x65134a10ce482bcb9fb5104fdaa44a995089c556c98c77a6feef9b8c521faed (-0x3f3dfbf7c95363be7ec489316dc82667d10c471a59a8eab09f75af27b3a7389);
D 0x3de13dc9424cfe1b8f50c0b5030e03cbaa53abb572bd068b48809fd1b94bb35 0xd94dc52f39a3342889b7d871ca2cafbca3d1d673b94f1dd167ae28e626f23b 0x200d25ac8ef06553423dd4353328fbcac4c2772c45904c063e9f1e897103e10 (-0x9f05c2378341edc403aa4cbfa65d2c1311133674b218bd4b435d65197503df8) 0x1dea3b3f28918843ca16d0df044b25940ef1247413b584dbf70d547755f3178 0x2ad1b46f42f75f9e27e5fdbf5bb678efca920fe5cb32674fb226455ee44674e;
S 0x7f7bbcb87546eb7737dd7c45a2f7eccc336dc081d20b7eac4b3b157ab8d6f21 0x3cff864a5a6cdba9ea7f5aac52cb57abac1add21ec84f3493b8c3e9808cf8ee 0x4ad2c39701c3c8065a92094712cb1ee9b608ffd3e8fb53c1ca07ba2850d9ae8 (-0x3ed95cb3439bf09fe70f21865420e5c88d0bfda9eeb7c4808fcb69f5bc0ed10) 0x7ef8021bd17900d137fd5dc44b977a509b1617f252733e27fa6ee6309fa33a6 (-0x2f39ab0bca2b48b457477edd0ac6b0aa0909b55c41d81a8161af8d181c3530b)].
