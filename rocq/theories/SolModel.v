(** Model of the exported Groth16 verifier contracts
    /repo/Notuscontract_g16.sol, /repo/contract_g16.sol and
    /repo/zkmultiswap/gnark-tests/solidity/Notuscontract_g16.sol
    (the three files differ only in the constants of verifyingKey, lines 168-179).

    uint256 values are integers; the callers of the model give values in [0, 2^256).
    The precompiled contracts 6 (addition), 7 (scalar multiplication) and 8 (pairing check) are section
    variables; [None] is a failed call. [None] as result of a function is a revert (or `invalid`).
    Gas is not modelled. *)
From Coq Require Import ZArith Bool List.
From Verif Require Import GoBig.
Import ListNotations.
Open Scope Z_scope.

Definition SNARK_SCALAR_FIELD : Z := 21888242871839275222246405745257275088548364400416034343698204186575808495617.  (* 150 *)
Definition PRIME_Q : Z := 21888242871839275222246405745257275088696311157297823662689037894645226208583.             (* 27, 151 *)

Record G1Point := G1 { X1 : Z; Y1 : Z }.                        (* 29-32 *)
Record G2Point := G2 { X2 : Z * Z; Y2 : Z * Z }.                (* 34-38 *)
Record VerifyingKey := VK { alfa1 : G1Point; beta2 : G2Point; gamma2 : G2Point; delta2 : G2Point; IC : list G1Point }. (* 153-159 *)

(** require (cond) *)
Definition require (c : bool) : option unit := if c then Some tt else None.
Definition obind {A B} (x : option A) (f : A -> option B) : option B := match x with Some a => f a | None => None end.
Notation "'get' x <- e1 ; e2" := (obind e1 (fun x => e2)) (at level 200, x pattern, e1 at level 100, e2 at level 200, right associativity).

(** 43-51 negate *)
Definition negate (p : G1Point) : G1Point :=
  if (X1 p =? 0) && (Y1 p =? 0) then G1 0 0 else G1 (X1 p) (PRIME_Q - (Y1 p mod PRIME_Q)).

Section Contract.
Variable ecAdd : G1Point -> G1Point -> option G1Point.
Variable ecMul : G1Point -> Z -> option G1Point.
Variable ecPairing : list (G1Point * G2Point) -> option bool.

(** 56-76 plus, 83-97 scalar_mul, 104-143 pairing *)
Definition plus (p1 p2 : G1Point) : option G1Point := ecAdd p1 p2.
Definition scalar_mul (p : G1Point) (s : Z) : option G1Point := ecMul p s.
Definition pairing (a1 : G1Point) (a2 : G2Point) (b1 : G1Point) (b2 : G2Point) (c1 : G1Point) (c2 : G2Point) (d1 : G1Point) (d2 : G2Point)
  : option bool := ecPairing [(a1, a2); (b1, b2); (c1, c2); (d1, d2)].

(** 217-220: IC is indexed by i + 1 *)
Fixpoint input_loop (ic : list G1Point) (i : nat) (input : list Z) (vk_x : G1Point) : option G1Point :=
  match input with
  | [] => Some vk_x
  | x :: rest =>
      get _ <- require (x <? SNARK_SCALAR_FIELD);
      get p <- nth_error ic (i + 1);
      get q <- scalar_mul p x;
      get vk_x' <- plus vk_x q;
      input_loop ic (i + 1) rest vk_x'
  end.

(** 186-234 verifyProof; input has seven elements (the type of the parameter) *)
Definition verifyProof (vk : VerifyingKey) (a : Z * Z) (b : (Z * Z) * (Z * Z)) (c : Z * Z) (input : list Z) : option bool :=
  let A := G1 (fst a) (snd a) in
  let B := G2 (fst b) (snd b) in
  let C := G1 (fst c) (snd c) in
  get _ <- require (X1 A <? PRIME_Q);
  get _ <- require (Y1 A <? PRIME_Q);
  get _ <- require (fst (X2 B) <? PRIME_Q);
  get _ <- require (fst (Y2 B) <? PRIME_Q);
  get _ <- require (snd (X2 B) <? PRIME_Q);
  get _ <- require (snd (Y2 B) <? PRIME_Q);
  get _ <- require (X1 C <? PRIME_Q);
  get _ <- require (Y1 C <? PRIME_Q);
  get vk_x <- input_loop (IC vk) 0 input (G1 0 0);
  get ic0 <- nth_error (IC vk) 0;
  get vk_x <- plus vk_x ic0;                                                (* 222 *)
  pairing (negate A) B (alfa1 vk) (beta2 vk) vk_x (gamma2 vk) C (delta2 vk).
End Contract.

(** 167-180 verifyingKey *)

(** /repo/Notuscontract_g16.sol:167-180 *)
Definition Notus_vk : VerifyingKey := VK
  (G1 15459242519190255971710600051270383640956459315198290592063325395996221381952
      12607309026900761582858539342178869921652472639450855760135352742553842883422)
  (G2 (1854782125927536508630505404460566306155328748326956483406381388727373471463,
       16203402397274116921567794114810876050361620834081117510636310125976743447624)
      (1427996837820523178870066922234077568470145255214157277892534743364850789527,
       15514228945100857037738342441879244170261745615092902174644676165303652898744))
  (G2 (9008760104177459009272247464442107282571806570215832570658848354483832604982,
       858162255713458465216662952470259618787821694108857205461096662761081649501)
      (18507631901199354217391111365588317081566058867323040481135498225727364190212,
       21217890821704139816863791817096351472975383121689630443026760449469910925087))
  (G2 (21461796447840383736538738376671165910715367169670750454544005602358307461686,
       1482919896370930464648037013045691446085998891338104685531607223906435394116)
      (17299340415898607244147520056916471945240024701844758306264371408671871860498,
       10327017379757746158025117196462188069765382949856375853249240624808878485056))
  [G1 147239348455710015232103076204421106407344248590506280149099093649872629791
      10450893164813900634372896368819157054457421654439933144104783841653746272348;
   G1 6979881439165884089584651668363384551292920669074662292567572968995010733925
      10162201489724828296627809518074287687717636673016276113579351466362690962873;
   G1 20666377113115411208252160333797192491940325258809727765930554534870390136589
      4321497327321576920014997178101387830714606111167418718233644019985624968027;
   G1 5062869769771458070044009705528866788650964528334567613854777260696560209801
      6056675606037491667458417285290628527056094572156646731185839651250518299999;
   G1 19366109366076826374378103745593003997006963245761179023354984805383906865348
      14783041077359775241136996576328240190407214512807533687458694012565667544129;
   G1 11803439338273264329575375631792457556975900903321759049878029701672762425744
      5167370473904146177686007949409732787863877991863024243644633181166446770479;
   G1 285350121391093922467611694204672055390232011114147408239960089379627692409
      13434117090271619736752809385274339635564195556337530944877567410764707675868;
   G1 18952744739237126403661786514383846774411032013646710937286889288202618212920
      449746446402604014036301891513284713099713591876572288905932939276301964949].

(** /repo/contract_g16.sol:167-180 *)
Definition Contract_vk : VerifyingKey := VK
  (G1 6192919075983869180067837305982491931420790743105939101434834147552651847399
      21353832218825821407207224910911424057350953113013588150048477338775813363053)
  (G2 (15384900469175430091248717559228467774837668198592942546638592665045159868820,
       881354484399763072434811852175522658095567449819085827549178635518543099526)
      (9634110018613617523544075049529322698233278160712209065430309676833985774051,
       6798282827502693544957549215877691348322228336722567191012167454339085758252))
  (G2 (552962854920360811958599004754246945161196653077450842938748425240520167863,
       20287652146169182267415347668477592695453613282999034402349212359239549691111)
      (1027150431094945681840963300409634679616823676157149928274505954667382007057,
       15581614414444764233001397175809721066177381757958689243336700905587427152279))
  (G2 (12109088083765137399387834665554243828686707842297897155297032683090897776929,
       16555880134296009783097171742471583322371512214701112481106448044210193245021)
      (17023619410057247984130710335718776520487092638666352093373186899005172901983,
       8014771196683139508599493408733345438239101284171451297642787072413732647378))
  [G1 16889426264006676636315465304341972115703808547058353738361314767989499386689
      11049856151175945386280396221020580834952337185805910724575949916526945618729;
   G1 3837302300504476621589120723520121467315930199851884347804210885346055024818
      8672045291893383839827938921900802279754159723327323353057226995872447417543;
   G1 9292054901051700398392790304041967987049351747131428510821196733052621437000
      7936722788948046568465168211913634025191776839148426559154984493515051797568;
   G1 252233781408019021257510267169101780037649766718854319328048368043406733664
      7988872478448969384794014675621475870337551960750591330698611227230986919097;
   G1 14051753213429578271752258857298217521015343258365751885748767668325986596378
      17552493379774853572506660627651401927743148180788791378225894293751007681068;
   G1 286461137824409924475046491720712756485540193885603505320287952590833705568
      19061898230263039193076820865138517291728442770141958510864300927561405545329;
   G1 77164260852357679884389275795292695326619959856417156888199602553912761844
      15513297046995078026755796953530625932582039005215255319859624047670708621285;
   G1 366645846659795011521409509657832651283042188668485175263505676436584855720
      15772602437151540533465458242804068649471117565810895535231358006086703056289].

(** /repo/zkmultiswap/gnark-tests/solidity/Notuscontract_g16.sol:167-180 *)
Definition GnarkTest_vk : VerifyingKey := VK
  (G1 4002454945995142310093457620111641427869597062862299568146064957055735117280
      7945921591083723297698687967525175667061174038761655595508781672546661960109)
  (G2 (18276443434917879997883875923943598161759605712772776336865433443136080460132,
       19297489925081955574465749979642968101472022360878075159600768699751781464815)
      (16122792022462824330584111185938803331597233324551638120553554884796471050829,
       7599712081412665010857608421177978008703710504431406094414163528060020461421))
  (G2 (19456301773958018890848016251545423414128560603475076394615933417299564314776,
       8049143193851922776486690065551948744820386138299019556509347486301821342653)
      (20918036918147128188304236096773331398876610365884830445889841216450430583845,
       7337245945886350026818915603683742228493213372325681794600518969804398859926))
  (G2 (21155349094279722810465579021029162492494888937711377952264314345335941287315,
       514923321438828581566859443049552514291396989804519985343881118170944277330)
      (6940258564247862593899313702031908617611008309660218338749956339500052104339,
       10648720158330591193959377135107166592873729644844905608546017365982961153949))
  [G1 1481518090649929432092124431370652774626200268919967114653357087635500949287
      17051994505882933681620942657153977542507609339919021292658121964031574429607;
   G1 13907527130918668912782521378963008755675507551477939287183915134427570653660
      18036517493280684994086422472836684574958522046082104706191767971772588653414;
   G1 12024878971219924596126167470912164126069571470920303836981484077735740045808
      12088532900345917689372970084382914967376381683133843567036433805021059831782;
   G1 18636548249513754170037480213561800274730274480431671474510506775565820670538
      484862457012831091000783580971633664837980608891731523078317918087979015627;
   G1 12854380827072509998894453778511927881740702346601022548753656112883525949779
      21016659594031436027610734629912485368654520267464487058274396512796059069605;
   G1 4544019347201695882789396639027859595936136516099841711754648249115364055017
      9132001756003505846917719392050459738388935268423112173203455225850718409826;
   G1 2707284442813110789542002829754932878085381333155093435984816354338373747733
      9985794599114598976150761017422279321926833732396436356012891646240264175081;
   G1 19216498579120724438395752292152035023946521488253681705256787857670741034254
      15442461392939439298422570900746792941640606215207840357965496110782956288763].
