(* Test vectors run on the model.  Not part of the build (about ten minutes): copy to a file ending in .v and compile with
   coqc -Q /verif/rocq/theories Verif.  Every entry evaluates to true, and the last three to Ret true.
   From /repo/pkg/ristretto/ristretto_test.go: 16 small multiples of the generator (lines 44-101), 29 bad encodings (103-163),
   7 elements derived from SHA-512 of a text (165-195), 4 inputs of SetUniformBytes giving the same element (197-224), the six
   constants (291-317).  From RFC 8032, section 7.1: the first three Ed25519 signatures. *)
From Coq Require Import ZArith List Bool String. From Coq.Strings Require Import Byte.
From Verif Require Import ZField Primes Bytes Scalar Go Group Fp Edwards EdPoint Ristretto Json Sha512 Ed25519.
Import ListNotations. Local Open Scope Z_scope.
Definition v32 (z : Z) := le_bytes 32 z.
Definition dec_is (b : list byte) (P : xpt) : bool := match r_SetCanonicalBytes b with Ret e => bytes_eqb (r_Bytes e) b && r_Equal e P && bytes_eqb (r_Bytes P) b | _ => false end.
Definition dec_fails (b : list byte) : bool := match r_SetCanonicalBytes b with Fail _ => true | _ => false end.
Definition uni_is (b c : list byte) : bool := match r_SetUniformBytes b with Ret e => bytes_eqb (r_Bytes e) c | _ => false end.
Time Eval vm_compute in (map (fun z => dec_is (v32 (fst z)) (snd z)) (combine [0x0000000000000000000000000000000000000000000000000000000000000000; 0x762d8de04559a6b68ddd82a56a0be3585f5100c561a984a8714ebc6a0aaef2e2; 0x19b9a3735c09d3adacf801b9d5e810a123ea0cae10b5ec7fd19c49f71032496a; 0x59029d2a15166b1662b496d12b1eead1d527ee44f0234fce5e75525d5d1f7494; 0x576aaf2d3268f55853956ceac553fdd9b33a29b3e0dffa6f468b3573278680da; 0x4ef40f16c412b85a49bb17b5cbfc3e4268f77c18807033d3c1526b0131b182e8; 0x03f41dbb1e609ad193a75b2f963f3b7c00f0a73602d8d80e05132bc9d34647f6; 0x6d172a82a7a6cfbd3887e1ec246aa985dfb7be4578385abd1fc86e922035f544; 0x1c6055dd3c26d577d0029f6992e587c80b3ea5c14d37e210be7e28f2d8933290; 0x316007a9825268d6f0b234d2c8c8e116dc8fc48f3fc6af1ca303738fce2a6202; 0x5fb92d9e6816c8cde84d56e7f0bc13f4012b95d4daa5d21e0a72b288d76f7020; 0x42abfdca4132c77a8795fe4a00c62b52f91018ba244c8672a52fdda58b3fe8bc; 0x6044f88fcae32660de03534e3e3f4cfacaafad678c20ca9930a09a6be19e54e4; 0x1f5048596c436701bec08f5abdd6da4227c43bc32f03b15ff5162edf00e052aa; 0x1e30107fab8500d37c47416f71e59608999125c5f0f6b5c29db209f4806b3746; 0x4ee6532e9ad9a90233fc1d68bb2190d93a4f12ea935b39d7cdc4d9c8f718c4e0] ((fix it n P := match n with O => [] | S k => P :: it k (r_Add P xbase) end) 16%nat xid))).
Time Eval vm_compute in (map (fun z => dec_fails (v32 z)) [0xffffffffffffffffffffffffffffffffffffffffffffffffffffffffffffff00; 0x7fffffffffffffffffffffffffffffffffffffffffffffffffffffffffffffff; 0x7ffffffffffffffffffffffffffffffffffffffffffffffffffffffffffffff3; 0x7fffffffffffffffffffffffffffffffffffffffffffffffffffffffffffffed; 0x0000000000000000000000000000000000000000000000000000000000000001; 0x7fffffffffffffffffffffffffffffffffffffffffffffffffffffffffffff01; 0x200ebebe6e516a1bd579363ae6cb6f743cce45d2c3d1711420fb14c9d8ff57ed; 0x624510f92b8a147d13febffeaaf0cc361c05aa886e248eb703d4e526184e4cc3; 0x78aca892ecb9ccebc44e3921a4e139d4a851b08d108b62b1cf574140a4e540c9; 0x247a11b110b5812205ed4ea9bce2491cfb6f62fd171dc9618edc537c49c5cf47; 0x723c6c021d0e1cc7121258b6034a17680c0111456e8fdab0517336335d16c6f1; 0x09133ed9b9432b04213d414af3ad0d450f476ac2020f36185149122f7a0f2687; 0x71d3818dbd5b1f0f658b26e4089debafb6e6327317836ae243e662ca358d9426; 0x2f74d947b1407d42963fdd4480f461c6825914a4297639f4b4573c717a07ac4e; 0x7bad89e9d6875bee4f60fa789001f2c296aec0208d6c6beb88c7adde007b6ade; 0x4270d622b4f4a6f1ca637781d95001516a148452290e4a1ee06108e27b47abbc; 0x08ea4bc14d0945a1fbd27e630f44c09fecabd1d188e09dbdabab2ce3f72d292a; 0x22fffd499660702f713ce5e27e12a03596d9420cfa18b2446c210dfc34e5a9f4; 0x316725777045b8d93d81f92586376a7490dadb7d3c4bf66c1926418c6f436882; 0x2b23f4c29519a2eacbb340b47aaa89e25897f6c6614fe5ec4e4dccc2cbe51028; 0x0e637945a17bc03537c90a1c94d35f75764fa9741173c9d854725a8fe758b83e; 0x2042e0155212a6e8ad7a9c1e58e32bfbed2370f133aba149c04864c755dc5fa4; 0x6e395f1c158d5c06bfd9e9eebec230611ccaad41ecd3bfeb47a66b3c81fe83d4; 0x32ba693752e880f7f5c81e8e84f6ae38cc0c96233148545ac6980105301d2e8a; 0x7b09fad9198411a8c11a9543b4f3eabb9251be1096ddd78ac686b4f862848832; 0x65115df3fbf8478c431fef3c6937b07515e4bd040429bacc55439d1b50427122; 0x1ee031ed226aa999b470016e874c14151ec4ef07d48192ebcf47a81d49cc375c; 0x4b8aa49277284fc667a93056fa1e2c7f744fe7c01c7cbcdc0ec9b87c11255444; 0x7fffffffffffffffffffffffffffffffffffffffffffffffffffffffffffffec]).
Time Eval vm_compute in (map (fun z => uni_is (Sum512 (bs (fst z))) (v32 (snd z))) [("Ristretto is traditionally a short shot of espresso coffee"%string, 0x460a4af450fe6df819a8e6ffbb048f1a535843f140170d12457d741a2af86630); ("made with the normal amount of ground coffee but extracted with"%string, 0x1bd66ea79f1833f1641ac3e5a2953c77b42c60e7d0c5942a2d2d367d6f5b6ef2); ("about half the amount of water in the same amount of time"%string, 0x2628e0ffd7b9e78edd579a2add28e19dcc02333da8cec5a2e667689e2acd6c00); ("by using a finer grind."%string, 0x2af917c85359638c5404bb1fca3eae5d00698199c3ae90583c9537f27cc8f0f8); ("This produces a concentrated shot of coffee per volume."%string, 0x7911c4c47cefe8d7d2589702066e2da467175c764a300ce197a420dfdee781ae); ("Just pulling a normal shot short will produce a weaker shot"%string, 0x2886cea9f164edb21a0d8740d177dbddf71c251cbf41e8d3445e9fff525670e2); ("and is not a Ristretto as some believe."%string, 0x65509e6df7887055ea0e51b91c68506769ef4c43a7f86348decd11252607bd80)]).
Time Eval vm_compute in (map (fun z => uni_is (v32 (fst z) ++ v32 (snd z)) (v32 0x7f51f05e8ecb793398f2e9dd08ac2eef46775ccbbd77d22831b7231079824230)) [(0xffffffffffffffffffffffffffffffffffffffffffffffffffffffffffffffed, 0x0000000000000000000000000000000000000000000000000000000000000012); (0x7fffffffffffffffffffffffffffffffffffffffffffffffffffffffffffffed, 0xffffffffffffffffffffffffffffffffffffffffffffffffffffffffffffffff); (0x8000000000000000000000000000000000000000000000000000000000000000, 0x7fffffffffffffffffffffffffffffffffffffffffffffffffffffffffffffff); (0x0000000000000000000000000000000000000000000000000000000000000000, 0x8000000000000000000000000000000000000000000000000000000000000012)]).
Time Eval vm_compute in [Z.eqb (fz r_d) 37095705934669439343138083508754565189542113879843219016388785533085940283555; Z.eqb (fz r_sqrtM1) 19681161376707505956807079304988542015446066515923890162744021073123829784752; Z.eqb (fz r_sqrtADMinusOne) 25063068953384623474111414158702152701244531502492656460079210482610430750235; Z.eqb (fz r_invSqrtAMinusD) 54469307008909316920995813868745141605393597292927456921205312896311721017578; Z.eqb (fz r_oneMinusDSQ) 1159843021668779879193775521855586647937357759715417654439879720876111806838; Z.eqb (fz r_dMinusOneSQ) 40440834346308536858101042469323190826248399146238708352240133220865137265952].
Time Eval vm_compute in (@ed25519_Verify sha512_hash (v32 0x1a5107f7681a02af2523a6daf372e10e3a0764c9d3fe4bd5b70ab18201985ad7) [] (v32 0x5501492265e073d874d9e5b81e7f87848a826e80cce2869072ac60c3004356e5 ++ v32 0x0b107a8e4341516524be5b59f0f55bd26bb4f91c70391ec6ac3ba3901582b85f)).
Time Eval vm_compute in (@ed25519_Verify sha512_hash (v32 0x0c66f42af155cdc08c96c42ecf2c989cbc7e1b4da70ab7925a8943e8c317403d) [x72] (v32 0xda69dbeb232276b38f3f5016547bb2a24025645f0b820e72b8cad4f0a909a092 ++ v32 0x000cbb1216290db0ee2a30b4ae2e7b388c1df1d013368f456e99153ee4c15a08)).
Time Eval vm_compute in (@ed25519_Verify sha512_hash (v32 0x258090481591eb5dac0333ba13ed160858f03002d07ea48da3a118628ecd51fc) [xaf; x82] (v32 0xacc35adbd780365e443a7484a248e50ca301be3a9ce627480224ecde57d69162 ++ v32 0x0ac41eeacebe27c08dd26e71e9157c4a59c64d9860f767ae90f2168d539bff18)).
