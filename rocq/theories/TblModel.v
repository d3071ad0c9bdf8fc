(** factorial and bernoulli_number, which read tables. *)
From Coq Require Import List Arith Bool ZArith QArith.
From Verif Require Import Base.
Import ListNotations.
Local Open Scope Z_scope.

(** The types with a table, by kind and size in bytes *)
Inductive ftype : Type := Int1 | UInt1 | Int2 | UInt2 | Int4 | UInt4 | Int8 | UInt8 | Float | Double | LongDouble.

(** A literal [m e k] of the source as the integer it denotes; the rounding to the type of a floating literal is left out *)
Definition lit (m k : Z) : Z := m * 10 ^ k.

(** sprout/math/factorial.hpp 23-31 *)
Definition factorials_int_1 : list Z :=
  [1; 1; 2; 6; 24; 120].
(** sprout/math/factorial.hpp 32-40 *)
Definition factorials_uint_1 : list Z :=
  [1; 1; 2; 6; 24; 120].
(** sprout/math/factorial.hpp 41-51 *)
Definition factorials_int_2 : list Z :=
  [1; 1; 2; 6; 24; 120; 720; 5040].
(** sprout/math/factorial.hpp 52-63 *)
Definition factorials_uint_2 : list Z :=
  [1; 1; 2; 6; 24; 120; 720; 5040; 40320].
(** sprout/math/factorial.hpp 64-78 *)
Definition factorials_int_4 : list Z :=
  [1; 1; 2; 6; 24; 120; 720; 5040; 40320; 362880; 3628800; 39916800].
(** sprout/math/factorial.hpp 79-93 *)
Definition factorials_uint_4 : list Z :=
  [1; 1; 2; 6; 24; 120; 720; 5040; 40320; 362880; 3628800; 39916800].
(** sprout/math/factorial.hpp 94-117 *)
Definition factorials_int_8 : list Z :=
  [1; 1; 2; 6; 24; 120; 720; 5040; 40320; 362880; 3628800; 39916800; 479001600; 6227020800; 87178291200;
   1307674368000; 20922789888000; 355687428096000; 6402373705728000; 121645100408832000; 2432902008176640000].
(** sprout/math/factorial.hpp 118-141 *)
Definition factorials_uint_8 : list Z :=
  [1; 1; 2; 6; 24; 120; 720; 5040; 40320; 362880; 3628800; 39916800; 479001600; 6227020800; 87178291200;
   1307674368000; 20922789888000; 355687428096000; 6402373705728000; 121645100408832000; 2432902008176640000].
(** sprout/math/factorial.hpp 142-179 *)
Definition factorials_float : list Z :=
  [lit 1 0; lit 1 0; lit 2 0; lit 6 0; lit 24 0; lit 120 0; lit 720 0; lit 5040 0; lit 40320 0; lit 362880 0;
   lit 3628800 0; lit 39916800 0; lit 479001600 0; lit 6227020800 0; lit 87178291200 0; lit 1307674368000 0;
   lit 20922789888000 0; lit 355687428096000 0; lit 6402373705728000 0; lit 121645100408832000 0;
   lit 243290200817664 4; lit 5109094217170944 4; lit 112400072777760768 4; lit 2585201673888497664 4;
   lit 62044840173323943936 4; lit 15511210043330985984 6; lit 403291461126605635584 6;
   lit 10888869450418352160768 6; lit 304888344611713860501504 6; lit 8841761993739701954543616 6;
   lit 26525285981219105863630848 7; lit 822283865417792281772556288 7; lit 26313083693369353016721801216 7;
   lit 868331761881188649551819440128 7; lit 29523279903960414084761860964352 7].
(** sprout/math/factorial.hpp 180-353 *)
Definition factorials_double : list Z :=
  [lit 1 0; lit 1 0; lit 2 0; lit 6 0; lit 24 0; lit 120 0; lit 720 0; lit 5040 0; lit 40320 0; lit 362880 0;
   lit 3628800 0; lit 39916800 0; lit 479001600 0; lit 6227020800 0; lit 87178291200 0; lit 1307674368000 0;
   lit 20922789888000 0; lit 355687428096000 0; lit 6402373705728000 0; lit 121645100408832000 0;
   lit 243290200817664 4; lit 5109094217170944 4; lit 112400072777760768 4; lit 2585201673888497664 4;
   lit 62044840173323943936 4; lit 15511210043330985984 6; lit 403291461126605635584 6;
   lit 10888869450418352160768 6; lit 304888344611713860501504 6; lit 8841761993739701954543616 6;
   lit 26525285981219105863630848 7; lit 822283865417792281772556288 7; lit 26313083693369353016721801216 7;
   lit 868331761881188649551819440128 7; lit 29523279903960414084761860964352 7;
   lit 103331479663861449296666513375232 8; lit 3719933267899012174679994481508352 8;
   lit 137637530912263450463159795815809024 8; lit 5230226174666011117600072241000742912 8;
   lit 203978820811974433586402817399028973568 8; lit 815915283247897734345611269596115894272 9;
   lit 3345252661316380710817006205344075166515 10; lit 1405006117752879898543142606244511569936 12;
   lit 6041526306337383563735513206851399750726 13; lit 265827157478844876804362581101461589032 16;
   lit 1196222208654801945619631614956577150644 17; lit 5502622159812088949850305428800254892962 18;
   lit 2586232415111681806429643551536119799692 20; lit 1241391559253607267086228904737337503852 22;
   lit 6082818640342675608722521633212953768876 23; lit 3041409320171337804361260816606476884438 25;
   lit 1551118753287382280224243016469303211063 27; lit 8065817517094387857166063685640376697529 28;
   lit 427488328406002556429801375338939964969 31; lit 2308436973392413804720927426830275810833 32;
   lit 1269640335365827592596510084756651695958 34; lit 7109985878048634518540456474637249497365 35;
   lit 4052691950487721675568060190543232213498 37; lit 2350561331282878571829474910515074683829 39;
   lit 1386831185456898357379390197203894063459 41; lit 8320987112741390144276341183223364380754 42;
   lit 507580213877224798800856812176625227226 45; lit 3146997326038793752565312235495076408801 46;
   lit 1982608315404440064116146708361898137545 48; lit 1268869321858841641034333893351614808029 50;
   lit 8247650592082470666723170306785496252186 51; lit 5443449390774430640037292402478427526443 53;
   lit 3647111091818868528824985909660546442717 55; lit 2480035542436830599600990418569171581047 57;
   lit 1711224524281413113724683388812728390923 59; lit 1197857166996989179607278372168909873646 61;
   lit 8504785885678623175211676442399260102886 62; lit 6123445837688608686152407038527467274078 64;
   lit 4470115461512684340891257138125051110077 66; lit 3307885441519386412259530282212537821457 68;
   lit 2480914081139539809194647711659403366093 70; lit 188549470166605025498793226086114655823 73;
   lit 1451830920282858696340707840863082849837 74; lit 1132428117820629783145752115873204622873 76;
   lit 8946182130782975286851441715398316520698 77; lit 7156945704626380229481153372318653216558 79;
   lit 5797126020747367985879734231578109105412 81; lit 4753643337012841748421382069894049466438 83;
   lit 3945523969720658651189747118012061057144 85; lit 3314240134565353266999387579130131288001 87;
   lit 2817104114380550276949479442260611594801 89; lit 2422709538367273238176552320344125971528 91;
   lit 210775729837952771721360051869938959523 94; lit 1854826422573984391147968456455462843802 95;
   lit 1650795516090846108121691926245361930984 97; lit 1485715964481761497309522733620825737886 99;
   lit 1352001527678402962551665687594951421476 101; lit 1243841405464130725547532432587355307758 103;
   lit 1156772507081641574759205162306240436215 105; lit 1087366156656743080273652852567866010042 107;
   lit 103299784882390592625997020993947270954 110; lit 9916779348709496892095714015418938011582 110;
   lit 9619275968248211985332842594956369871234 112; lit 942689044888324774562618574305724247381 115;
   lit 9332621544394415268169923885626670049072 116; lit 9332621544394415268169923885626670049072 118;
   lit 9425947759838359420851623124482936749562 120; lit 9614466715035126609268655586972595484554 122;
   lit 990290071648618040754671525458177334909 125; lit 1029901674514562762384858386476504428305 127;
   lit 1081396758240290900504101305800329649721 129; lit 1146280563734708354534347384148349428704 131;
   lit 1226520203196137939351751701038733888713 133; lit 132464181945182897449989183712183259981 136;
   lit 1443859583202493582204882102462797533793 137; lit 1588245541522742940425370312709077287172 139;
   lit 1762952551090244663872161047107075788761 141; lit 1974506857221074023536820372759924883413 143;
   lit 2231192748659813646596607021218715118256 145; lit 2543559733472187557120132004189335234812 147;
   lit 2925093693493015690688151804817735520034 149; lit 339310868445189820119825609358857320324 152;
   lit 396993716080872089540195962949863064779 154; lit 4684525849754290656574312362808384164393 155;
   lit 5574585761207605881323431711741977155627 157; lit 6689502913449127057588118054090372586753 159;
   lit 8094298525273443739681622845449350829971 161; lit 9875044200833601362411579871448208012564 163;
   lit 1214630436702532967576624324188129585545 166; lit 1506141741511140879795014161993280686076 168;
   lit 1882677176888926099743767702491600857595 170; lit 237217324288004688567714730513941708057 173;
   lit 3012660018457659544809977077527059692324 174; lit 3856204823625804217356770659234636406175 176;
   lit 4974504222477287440390234150412680963966 178; lit 6466855489220473672507304395536485253155 180;
   lit 8471580690878820510984568758152795681634 182; lit 1118248651196004307449963076076169029976 185;
   lit 1487270706090685728908450891181304809868 187; lit 1992942746161518876737324194182948445223 189;
   lit 269047270731805048359538766214698040105 192; lit 3659042881952548657689727220519893345429 193;
   lit 5012888748274991661034926292112253883237 195; lit 6917786472619488492228198283114910358867 197;
   lit 9615723196941089004197195613529725398826 199; lit 1346201247571752460587607385894161555836 202;
   lit 1898143759076170969428526414110767793728 204; lit 2695364137888162776588507508037290267094 206;
   lit 3854370717180072770521565736493325081944 208; lit 5550293832739304789551054660550388118 213;
   lit 80479260574719919448490292577980627711 214; lit 1174997204390910823947958271638517164581 215;
   lit 1727245890454638911203498659308620231933 217; lit 2556323917872865588581178015776757943262 219;
   lit 380892263763056972698595524350736933546 222; lit 571338395644585459047893286526105400319 224;
   lit 8627209774233240431623188626544191544816 225; lit 1311335885683452545606724671234717114812 228;
   lit 2006343905095682394778288746989117185662 230; lit 308976961384735088795856467036324046592 233;
   lit 4789142901463393876335775239063022722176 234; lit 7471062926282894447083809372938315446595 236;
   lit 1172956879426414428192158071551315525115 239; lit 1853271869493734796543609753051078529682 241;
   lit 2946702272495038326504339507351214862195 243; lit 4714723635992061322406943211761943779512 245;
   lit 7590705053947218729075178570936729485014 247; lit 1229694218739449434110178928491750176572 250;
   lit 2004401576545302577599591653441552787813 252; lit 3287218585534296227263330311644146572013 254;
   lit 5423910666131588774984495014212841843822 256; lit 9003691705778437366474261723593317460744 258;
   lit 1503616514864999040201201707840084015944 261; lit 2526075744973198387538018869171341146786 263;
   lit 4269068009004705274939251888899566538069 265; lit 7257415615307998967396728211129263114717 267].
(** sprout/math/factorial.hpp 354-527 *)
Definition factorials_long_double : list Z :=
  [lit 1 0; lit 1 0; lit 2 0; lit 6 0; lit 24 0; lit 120 0; lit 720 0; lit 5040 0; lit 40320 0; lit 362880 0;
   lit 3628800 0; lit 39916800 0; lit 479001600 0; lit 6227020800 0; lit 87178291200 0; lit 1307674368000 0;
   lit 20922789888000 0; lit 355687428096000 0; lit 6402373705728000 0; lit 121645100408832000 0;
   lit 243290200817664 4; lit 5109094217170944 4; lit 112400072777760768 4; lit 2585201673888497664 4;
   lit 62044840173323943936 4; lit 15511210043330985984 6; lit 403291461126605635584 6;
   lit 10888869450418352160768 6; lit 304888344611713860501504 6; lit 8841761993739701954543616 6;
   lit 26525285981219105863630848 7; lit 822283865417792281772556288 7; lit 26313083693369353016721801216 7;
   lit 868331761881188649551819440128 7; lit 29523279903960414084761860964352 7;
   lit 103331479663861449296666513375232 8; lit 3719933267899012174679994481508352 8;
   lit 137637530912263450463159795815809024 8; lit 5230226174666011117600072241000742912 8;
   lit 203978820811974433586402817399028973568 8; lit 815915283247897734345611269596115894272 9;
   lit 3345252661316380710817006205344075166515 10; lit 1405006117752879898543142606244511569936 12;
   lit 6041526306337383563735513206851399750726 13; lit 265827157478844876804362581101461589032 16;
   lit 1196222208654801945619631614956577150644 17; lit 5502622159812088949850305428800254892962 18;
   lit 2586232415111681806429643551536119799692 20; lit 1241391559253607267086228904737337503852 22;
   lit 6082818640342675608722521633212953768876 23; lit 3041409320171337804361260816606476884438 25;
   lit 1551118753287382280224243016469303211063 27; lit 8065817517094387857166063685640376697529 28;
   lit 427488328406002556429801375338939964969 31; lit 2308436973392413804720927426830275810833 32;
   lit 1269640335365827592596510084756651695958 34; lit 7109985878048634518540456474637249497365 35;
   lit 4052691950487721675568060190543232213498 37; lit 2350561331282878571829474910515074683829 39;
   lit 1386831185456898357379390197203894063459 41; lit 8320987112741390144276341183223364380754 42;
   lit 507580213877224798800856812176625227226 45; lit 3146997326038793752565312235495076408801 46;
   lit 1982608315404440064116146708361898137545 48; lit 1268869321858841641034333893351614808029 50;
   lit 8247650592082470666723170306785496252186 51; lit 5443449390774430640037292402478427526443 53;
   lit 3647111091818868528824985909660546442717 55; lit 2480035542436830599600990418569171581047 57;
   lit 1711224524281413113724683388812728390923 59; lit 1197857166996989179607278372168909873646 61;
   lit 8504785885678623175211676442399260102886 62; lit 6123445837688608686152407038527467274078 64;
   lit 4470115461512684340891257138125051110077 66; lit 3307885441519386412259530282212537821457 68;
   lit 2480914081139539809194647711659403366093 70; lit 188549470166605025498793226086114655823 73;
   lit 1451830920282858696340707840863082849837 74; lit 1132428117820629783145752115873204622873 76;
   lit 8946182130782975286851441715398316520698 77; lit 7156945704626380229481153372318653216558 79;
   lit 5797126020747367985879734231578109105412 81; lit 4753643337012841748421382069894049466438 83;
   lit 3945523969720658651189747118012061057144 85; lit 3314240134565353266999387579130131288001 87;
   lit 2817104114380550276949479442260611594801 89; lit 2422709538367273238176552320344125971528 91;
   lit 210775729837952771721360051869938959523 94; lit 1854826422573984391147968456455462843802 95;
   lit 1650795516090846108121691926245361930984 97; lit 1485715964481761497309522733620825737886 99;
   lit 1352001527678402962551665687594951421476 101; lit 1243841405464130725547532432587355307758 103;
   lit 1156772507081641574759205162306240436215 105; lit 1087366156656743080273652852567866010042 107;
   lit 103299784882390592625997020993947270954 110; lit 9916779348709496892095714015418938011582 110;
   lit 9619275968248211985332842594956369871234 112; lit 942689044888324774562618574305724247381 115;
   lit 9332621544394415268169923885626670049072 116; lit 9332621544394415268169923885626670049072 118;
   lit 9425947759838359420851623124482936749562 120; lit 9614466715035126609268655586972595484554 122;
   lit 990290071648618040754671525458177334909 125; lit 1029901674514562762384858386476504428305 127;
   lit 1081396758240290900504101305800329649721 129; lit 1146280563734708354534347384148349428704 131;
   lit 1226520203196137939351751701038733888713 133; lit 132464181945182897449989183712183259981 136;
   lit 1443859583202493582204882102462797533793 137; lit 1588245541522742940425370312709077287172 139;
   lit 1762952551090244663872161047107075788761 141; lit 1974506857221074023536820372759924883413 143;
   lit 2231192748659813646596607021218715118256 145; lit 2543559733472187557120132004189335234812 147;
   lit 2925093693493015690688151804817735520034 149; lit 339310868445189820119825609358857320324 152;
   lit 396993716080872089540195962949863064779 154; lit 4684525849754290656574312362808384164393 155;
   lit 5574585761207605881323431711741977155627 157; lit 6689502913449127057588118054090372586753 159;
   lit 8094298525273443739681622845449350829971 161; lit 9875044200833601362411579871448208012564 163;
   lit 1214630436702532967576624324188129585545 166; lit 1506141741511140879795014161993280686076 168;
   lit 1882677176888926099743767702491600857595 170; lit 237217324288004688567714730513941708057 173;
   lit 3012660018457659544809977077527059692324 174; lit 3856204823625804217356770659234636406175 176;
   lit 4974504222477287440390234150412680963966 178; lit 6466855489220473672507304395536485253155 180;
   lit 8471580690878820510984568758152795681634 182; lit 1118248651196004307449963076076169029976 185;
   lit 1487270706090685728908450891181304809868 187; lit 1992942746161518876737324194182948445223 189;
   lit 269047270731805048359538766214698040105 192; lit 3659042881952548657689727220519893345429 193;
   lit 5012888748274991661034926292112253883237 195; lit 6917786472619488492228198283114910358867 197;
   lit 9615723196941089004197195613529725398826 199; lit 1346201247571752460587607385894161555836 202;
   lit 1898143759076170969428526414110767793728 204; lit 2695364137888162776588507508037290267094 206;
   lit 3854370717180072770521565736493325081944 208; lit 5550293832739304789551054660550388118 213;
   lit 80479260574719919448490292577980627711 214; lit 1174997204390910823947958271638517164581 215;
   lit 1727245890454638911203498659308620231933 217; lit 2556323917872865588581178015776757943262 219;
   lit 380892263763056972698595524350736933546 222; lit 571338395644585459047893286526105400319 224;
   lit 8627209774233240431623188626544191544816 225; lit 1311335885683452545606724671234717114812 228;
   lit 2006343905095682394778288746989117185662 230; lit 308976961384735088795856467036324046592 233;
   lit 4789142901463393876335775239063022722176 234; lit 7471062926282894447083809372938315446595 236;
   lit 1172956879426414428192158071551315525115 239; lit 1853271869493734796543609753051078529682 241;
   lit 2946702272495038326504339507351214862195 243; lit 4714723635992061322406943211761943779512 245;
   lit 7590705053947218729075178570936729485014 247; lit 1229694218739449434110178928491750176572 250;
   lit 2004401576545302577599591653441552787813 252; lit 3287218585534296227263330311644146572013 254;
   lit 5423910666131588774984495014212841843822 256; lit 9003691705778437366474261723593317460744 258;
   lit 1503616514864999040201201707840084015944 261; lit 2526075744973198387538018869171341146786 263;
   lit 4269068009004705274939251888899566538069 265; lit 7257415615307998967396728211129263114717 267].

(** factorial.hpp 537, 557, 577, 597, 617, 637, 657, 677, 697, 717, 737 *)
Definition factorial_limit (t : ftype) : nat :=
  match t with
  | Int1 => 5
  | UInt1 => 5
  | Int2 => 7
  | UInt2 => 8
  | Int4 => 11
  | UInt4 => 11
  | Int8 => 20
  | UInt8 => 20
  | Float => 34
  | Double => 170
  | LongDouble => 170
  end%nat.
(** the same structures *)
Definition factorials (t : ftype) : list Z :=
  match t with
  | Int1 => factorials_int_1
  | UInt1 => factorials_uint_1
  | Int2 => factorials_int_2
  | UInt2 => factorials_uint_2
  | Int4 => factorials_int_4
  | UInt4 => factorials_uint_4
  | Int8 => factorials_int_8
  | UInt8 => factorials_uint_8
  | Float => factorials_float
  | Double => factorials_double
  | LongDouble => factorials_long_double
  end.

(** 772-779 *)
Definition unchecked_factorial (t : ftype) (x : nat) : res Z := rd (factorials t) x.
(** 780-787; a failed SPROUT_ASSERT is [UB] *)
Definition factorial (t : ftype) (x : nat) : res Z :=
  if (x <=? factorial_limit t)%nat then unchecked_factorial t x else UB.

(** The quotient of two literals; rounding is left out *)
Definition quo (n : Z) (d : positive) : Q := Qmake n d.

(** sprout/math/bernoulli.hpp 20-55 *)
Definition bernoullis_float : list Q :=
  [quo 1 1; quo 1 6; quo (-1) 30; quo 1 42; quo (-1) 30; quo 5 66; quo (-691) 2730; quo 7 6; quo (-3617) 510;
   quo 43867 798; quo (-174611) 330; quo 854513 138; quo (-236364091) 2730; quo 8553103 6; quo (-236364091) 870;
   quo 8615841276005 14322; quo (-7709321041217) 510; quo 2577687858367 6; quo (-26315271553053477373) 1919190;
   quo 2929993913841559 6; quo (-261082718496449122051) 13530; quo 1520097643918070802691 1806;
   quo (lit (-2783326957930102423502) 1) 690; quo (lit 596451111593912163278 3) 282;
   quo (lit (-120866265222965259346) 3) 1; quo (lit 7500866746076964366856 3) 1;
   quo (lit (-5038778101481068914138) 5) 1; quo (lit 365287764848181233351 8) 1;
   quo (lit (-2849876930245088222627) 9) 1; quo (lit 2386542749968362764465 11) 1;
   quo (lit (-2139994925722533366581) 13) 1; quo (lit 2050097572347809756992 15) 1;
   quo (lit (-209380059113463784091) 18) 1].
(** sprout/math/bernoulli.hpp 56-109 *)
Definition bernoullis_double : list Q :=
  [quo 1 1; quo 1 6; quo (-1) 30; quo 1 42; quo (-1) 30; quo 5 66; quo (-691) 2730; quo 7 6; quo (-3617) 510;
   quo 43867 798; quo (-174611) 330; quo 854513 138; quo (-236364091) 2730; quo 8553103 6; quo (-236364091) 870;
   quo 8615841276005 14322; quo (-7709321041217) 510; quo 2577687858367 6; quo (-26315271553053477373) 1919190;
   quo 2929993913841559 6; quo (-261082718496449122051) 13530; quo 1520097643918070802691 1806;
   quo (lit (-2783326957930102423502) 1) 690; quo (lit 596451111593912163278 3) 282;
   quo (lit (-120866265222965259346) 3) 1; quo (lit 7500866746076964366856 3) 1;
   quo (lit (-5038778101481068914138) 5) 1; quo (lit 365287764848181233351 8) 1;
   quo (lit (-2849876930245088222627) 9) 1; quo (lit 2386542749968362764465 11) 1;
   quo (lit (-2139994925722533366581) 13) 1; quo (lit 2050097572347809756992 15) 1;
   quo (lit (-209380059113463784091) 18) 1; quo (lit 2275269648846351555965 19) 1;
   quo (lit (-262577102862395760473) 22) 1; quo (lit 321250821027180325182 24) 1;
   quo (lit (-4159827816679471091392) 25) 1; quo (lit 5692069548203528002388 27) 1;
   quo (lit (-821836294197845756923) 30) 1; quo (lit 1250290432716699301673 32) 1;
   quo (lit (-2001558323324837027493) 34) 1; quo (lit 336749829153643742334 37) 1;
   quo (lit (-5947097050313544771866) 38) 1; quo (lit 1101191032362797755956 41) 1;
   quo (lit (-2135525954525350118866) 43) 1; quo (lit 4332889698664119241962 45) 1;
   quo (lit (-918855282416693282262) 48) 1; quo (lit 2034689677632907449346 50) 1;
   quo (lit (-470038339580357310786) 53) 1; quo (lit 1131804344548424927068 55) 1;
   quo (lit (-2838224957069370695926) 57) 1].
(** sprout/math/bernoulli.hpp 110-163 *)
Definition bernoullis_long_double : list Q :=
  [quo 1 1; quo 1 6; quo (-1) 30; quo 1 42; quo (-1) 30; quo 5 66; quo (-691) 2730; quo 7 6; quo (-3617) 510;
   quo 43867 798; quo (-174611) 330; quo 854513 138; quo (-236364091) 2730; quo 8553103 6; quo (-236364091) 870;
   quo 8615841276005 14322; quo (-7709321041217) 510; quo 2577687858367 6; quo (-26315271553053477373) 1919190;
   quo 2929993913841559 6; quo (-261082718496449122051) 13530; quo 1520097643918070802691 1806;
   quo (lit (-2783326957930102423502) 1) 690; quo (lit 596451111593912163278 3) 282;
   quo (lit (-120866265222965259346) 3) 1; quo (lit 7500866746076964366856 3) 1;
   quo (lit (-5038778101481068914138) 5) 1; quo (lit 365287764848181233351 8) 1;
   quo (lit (-2849876930245088222627) 9) 1; quo (lit 2386542749968362764465 11) 1;
   quo (lit (-2139994925722533366581) 13) 1; quo (lit 2050097572347809756992 15) 1;
   quo (lit (-209380059113463784091) 18) 1; quo (lit 2275269648846351555965 19) 1;
   quo (lit (-262577102862395760473) 22) 1; quo (lit 321250821027180325182 24) 1;
   quo (lit (-4159827816679471091392) 25) 1; quo (lit 5692069548203528002388 27) 1;
   quo (lit (-821836294197845756923) 30) 1; quo (lit 1250290432716699301673 32) 1;
   quo (lit (-2001558323324837027493) 34) 1; quo (lit 336749829153643742334 37) 1;
   quo (lit (-5947097050313544771866) 38) 1; quo (lit 1101191032362797755956 41) 1;
   quo (lit (-2135525954525350118866) 43) 1; quo (lit 4332889698664119241962 45) 1;
   quo (lit (-918855282416693282262) 48) 1; quo (lit 2034689677632907449346 50) 1;
   quo (lit (-470038339580357310786) 53) 1; quo (lit 1131804344548424927068 55) 1;
   quo (lit (-2838224957069370695926) 57) 1].

Inductive rtype : Type := RFloat | RDouble | RLongDouble.
(** bernoulli.hpp 173, 197, 221 *)
Definition bernoulli_number_limit (t : rtype) : nat := match t with RFloat => 64 | RDouble => 100 | RLongDouble => 100 end%nat.
Definition bernoulli_numbers (t : rtype) : list Q :=
  match t with RFloat => bernoullis_float | RDouble => bernoullis_double | RLongDouble => bernoullis_long_double end.
(** 252-264 *)
Definition bernoulli_number (t : rtype) (x : nat) : res Q :=
  if (x <=? bernoulli_number_limit t)%nat then
    if (x =? 1)%nat then Ok (quo (-1) 2)
    else if negb (x mod 2 =? 0)%nat then Ok 0%Q
    else rd (bernoulli_numbers t) (x / 2)%nat
  else UB.
