(** The Bernoulli numbers to B_100 over a common denominator; data for the proofs. *)
From Coq Require Import List ZArith.
Import ListNotations.
Local Open Scope Z_scope.
Definition bden : positive := 232862364358497360900063316880507363070.
Definition bnums : list Z :=
  [232862364358497360900063316880507363070; -116431182179248680450031658440253681535;
   38810394059749560150010552813417893845; 0; -7762078811949912030002110562683578769; 0;
   5544342008535651450001507544773984835; 0; -7762078811949912030002110562683578769; 0;
   17641088208977072795459342187917224475; 0; -58940620429202079260785257129828054169; 0;
   271672758418246921050073869693925256915; 0; -1651496415460166577206919641483912023969; 0;
   12800718467812285376695585866663178566155; 0; -123213122130307826315518047950976579312169; 0;
   1441912446051251125759389892010963683616195; 0; -20161282446779130708806742760771457322654769; 0;
   331949297863626142167735709300103028099351035; 0; -6356730629256243284707358744696652263193699769; 0;
   140085544649354638681861927342343472639633194675; 0; -3520021029914712361952201479165607130654995007169; 0;
   100041081546255182339450949134068917326713801051115; 0; -3192928450325366202739422333220164972370348864048969; 0;
   113714218388858805958487066719362184506237314811304355; 0;
   -4493447089595501383895901388299709710640599610609209169; 0;
   195998633122116934157827457336072869771906715921932818395; 0;
   -9393218785599240087519101659563432865707185245214877783769; 0;
   492521333581604055892151262500440380302769187701250806937235; 0;
   -28145204291000914485469162289041801081315576418090793955980769; 0;
   1746669565229510581341423309047746268449951794157344312263484875; 0;
   -117334178218870226013505741980689794781230868737970043811720920169; 0;
   8506177259377828276572968147456346450490108284275478235056800765315; 0;
   -663629080107607701292299597179448375598935163236598200292996984633969; 0;
   55573598740026315608163924727757655702280753162169030305675906489562555; 0;
   -4983242781189360610220028356468081777334505884660390260111380757190066169; 0;
   477390567862526579509779426923510468276476772107316056885066845517661140595; 0;
   -48756735614683119609080657023056544269434551328325107786364433014068139072769; 0;
   5298246699834894605445018030432451606827584612401726769231577426592847339243435; 0;
   -611443249989418418962809814036896289699992656572777796851992707199394998152421769; 0;
   74807225736497690301403124067017380186616902629035040492957142339618227413976095075; 0;
   -9686673407162275626893958214856596981027312637680225933062912907487566905175781793169; 0;
   1325468773087677394866928336580397177064929861966176384009790798014818831429748652399515; 0;
   -191374742582535989226253103850631556295104360500817445416619678584130384171501548913778969; 0;
   29114558629721936215231330229825252651955135863563794677021736849988314222774536426501340755; 0;
   -4660876035708512667361539282792493475089644617890113774832784130136039499305953248909825883169; 0;
   784163614140375260888228635287767045179970139745068322715420168734840119379255015497549716582795; 0;
   -138485508020545757435052589072330988805923449343219178687591413652562792649714290247527075474521769; 0;
   25642594740637567005478464137847918548796998367330551737899935230635896882994756447642626723104269635; 0;
   -4972836229197099454377067969991962148615174492531889830934605144800197658962965587896789013715015022769; 0;
   1008966939735503970703237797893497450823435231145628012781195239474091001344460887131628867238820739025275; 0;
   -213966813566846024565916775101751122046875575643672511180464608706902361547334991793090548680914407273626169; 0;
   47380264906942763252980194433638170888835399039882676799764739323499051728131522520125070619979226387883953715; 0;
   -10945423909382427561565890831495044562618707720502892804757401455860777687280129752917799476236128799989611483969;
   0;
   2635546356627656115693062757375456121176978253095019608369104559508945188086690723199178495453615055145355934638955;
   0;
   -660915774084468328995815214761748480267852539020012174324378769515675663896832903683589414874392717402444826340660169].
