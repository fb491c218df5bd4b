(** Pocklington certificates for the two BN254 moduli: per prime factor [q] of [n - 1],
    the bits of [(n-1)/q] and of [q] with the quotients of the modular squarings
    (data only; checked by [pock_check], Primality.v). *)
From Coq Require Import ZArith List.
From Verif Require Import Primality.
Import ListNotations.
Local Open Scope Z_scope.
Local Notation T k := (true, k).
Local Notation F k := (false, k).

Definition cert_639533339 : list entry :=
 [(1637, ([T 0;F 0;T 0;T 0;T 0;T 220062;T 790312653;F 5456662;T 710525412;T 60875992;F 111035826;F 158360112;F 232041823;F 563696358;T 28207805;F 447203870;F 623078841;T 1120817852;F 23882295],
  [T 0;T 24104108513732596;F 103886036;F 314681730;T 82718831445793624;T 142512760780281521;F 469075630;F 51423588;T 45830503833922619;F 33815864;T 35313606304240566]));
  (853, ([T 0;F 0;T 0;T 0;F 0;T 55015;T 620515365;T 129566628;F 273756443;F 412048246;F 425789070;F 10125117;T 5749795;F 347231237;T 783414876;T 52738814;F 370056932;F 399760323;T 629028268;F 589344821],
  [T 0;T 26251234154655810;F 68304208;T 111172640029382790;F 566658317;T 1246011527796494;F 84579483;T 38018919612993705;F 128561894;T 54359876137728841]))].

Definition cert_65865678001877903 : list entry :=
 [(639533339, ([T 0;T 0;F 0;F 0;F 0;T 0;F 4811499094384;F 17211256487011155;F 12930852755642900;T 26471187187845368;T 45918937611232604;T 106548730077825773;F 575084049936949;F 20337008570530909;F 17909831465362696;F 8957812574859433;F 19982056655505539;F 182767627022369;T 191556521759029;T 43978482478590778;F 6492325303965923;F 45322285505446117;F 63288597996882220;T 61216576767503058;F 21570288074556196;T 4104307225788775;F 13656337543951966],
  [T 0;F 1121638219535948;F 5612054531243013;T 423510183232298076066708681834053;T 45202959374349877660961621177297;F 29039037011862199;F 35635434184421551;F 63791688952762989;F 40002140595916967;T 490142921288394337846414271406219;T 446057554997906898972272095157838;T 82612513787164335000675626766215;T 244471495027615063934132657189104;F 4684008398454788;T 399319307562260678798468385898334;F 15757161600212;F 2286816488902135;F 55555497738486739;F 40057151456145759;F 18805961086870182;F 26498279738793255;T 193017574525211962194057670023672;F 17601064792557961;F 62465572167997396;F 778313152257439;T 142637744203100821101567003574651;T 270700714503731058371995098223914;F 55804294176725281;T 424256912718228810479975320665579;T 344093910544517473616235870615330]))].

Definition cert_13818364434197438864469338081 : list entry :=
 [(65865678001877903, ([T 0;T 0;F 0;F 0;F 0;F 0;T 11;T 6029396385341059018488849032;F 884363669090863434061195624;T 5126583333022570793371124314;T 1332287291617238877341127730;F 2161914732453046151362086970;F 463013859354695514139124629;F 14032855247567947294659998;T 1401949786073842315533881775;T 17143519203165805732740378846;F 177442666977171268995158131;T 34867471866212608159567063;F 945686430957463357797433800;F 3474059279683071211899348013;T 6490864979975223539824368237;F 4424728726368345116139345134;T 14677614160567393559483905204;T 2108391106919383424229655895;T 16212677819808335378335784360;F 274705599358989201090276;T 27178961020180359420052531882;F 10229149557443025403805724764;T 6490850032559479353922649588;F 5996009746119188294764522344;F 4624403104769690972397348741;F 12375866806841661028364915781;T 87293405563666857765410512;F 34685572868172718843708685;F 6003843200305748308873229536;F 13296058849542891426351952643;F 7023287948338256667858150105;F 9530329830701529986281943625],
  [T 0;T 36160157234019820593656434810912400073923117856596640388;T 20843270889732861504642252020179335800848481377405675075;F 12148439916717187945993007246;T 97545300189312131588803716683816824912735272897555113753;F 6282347664290678482172820614;T 6983042830610096821690238426374757642570061406534182653;F 5823353613936214452629922993;F 12318834183271586178204503029;F 218066780238875881708645688;F 375489476416926927519801274;F 7913059196821277262825356721;F 9707709772458610131767890683;F 1427181835548658164227207531;F 5068570390649222222447822820;F 6208243277799203197439006991;F 7846986668837679889618568807;T 76499064186232298931551398142410375436989102897297042427;T 9602329411420467013837213596607194569588137258964910571;T 8800667306140912692751007403220991781344172469321524;T 9169324035484884386315786489910343715427711914546378041;T 29878390081893383536680654949741633182927953850389896181;F 776027583842131564554195909;F 4383902044145152776301274455;F 10660309049614580476033707195;F 41053714139785103145534241;T 51608779354032304601844427235438354507461239986294555401;T 61043374658555247524768685186814798224406808011672472493;F 712834170252007700279149200;T 89491701248344353636660922585606478587825200665978331935;F 376660300561203939319250238;F 5145553972584220841260386703;F 6241283026006494625360125555;F 3909398619257669835214187983;T 72563195183604974763557242973781612092903686333931172970;T 63258007625692293349038722439362663270062652653233660169;F 255347119878347713289285475;F 3766904424235236668690114342;F 5080565997746519261641650059;T 95618413550745840307716752928220339353119280733914553914;F 8162792658097975055380754810;F 471428557447292700283853517;T 5061095872150748168633396977833222747944212071880761;T 19731478398026598964785085339503304957691047997579130911;F 2364435928482029727391501744;F 6280386855539157330383867780;T 27599597315488376749123508104598921971575946919681282583;T 5460940661845436937051013321219417080959782739717531005;T 5605098837909056663051674949084411895287930127706647470;F 676687891952362932159807334;F 1078013469197015318761326081;F 2823370130928126115010642214;T 33384886522644002102307075280757292915309801211280165261;T 18998614333635614113345463345054052558812856274856728064;T 48908744806797015680538685549567579040555357538794911464;T 29880169289190174974897177631906616417384215380690163679]))].

Definition cert_12048837557 : list entry :=
 [(93001, ([T 0;T 0;T 0;T 0;T 0;T 765498911;F 5520046833;T 8537201498;F 3244467408;F 4644530105;F 9505263007;F 336392001;T 11242384088;F 352950196;T 2986112109;F 8299775071;F 4456487218],
  [T 0;F 1870218883;T 16451349888927859461;T 3502721618401482488;F 7779489238;T 14294868686779702035;F 6985631890;T 42538139859378433201;T 53503287046519801375;F 3811507752;T 26270606334605735082;F 2742597457;F 4432669750;T 23825148409297723296;F 24083522;F 167780394;T 15748076069043557227]));
  (661, ([T 0;F 0;F 0;F 0;T 0;F 1;T 4370128725;T 2452752549;F 11104969275;F 5776368447;F 4426394728;T 75063363;F 3878368136;F 2460773810;F 92918129;T 955814841;T 1875009549;T 14182749288;T 10712696587;T 9159284517;F 25279411;F 8827122943;T 779391967;F 1883967643;F 409626748],
  [T 0;F 6540546652;T 84516555014702693873;F 11498100834;F 11215358;T 6137989824526503173;F 12782900;T 482411879239320274;F 346134391;T 881992682636795]))].

Definition cert_5156902474397 : list entry :=
 [(12048837557, ([T 0;T 0;F 0;T 0;F 0;T 1746;T 4090238284017;F 2871755203662;F 4951325238643],
  [T 0;F 4369150446462;T 21862140871488628274341726;T 12224982840619315606793564;F 443732931357;F 1171932332389;T 1733156689453160564084259;T 14620709647308900683536428;T 11495960765417857663256957;F 853522610811;F 3025003284539;F 1616150624214;T 22003033194379621967723165;F 272807969526;T 21770444583370473491980015;F 2413620445116;T 298248848865185725882352;F 3623900179975;T 1027670692763134515175230;F 1707345295202;T 16347769057038045662737379;F 779767962901;T 4408432623126168739210591;F 1309698949379;T 22128525595190984719738812;T 5212259069602066942075452;T 18541743323215569450052123;F 1103373106199;T 4703861561478465314858354;T 22486033615505003894371277;F 444435663950;T 10446711875180019631867178;F 4051014018134;T 14279164389288347422843891]))].

Definition cert_1670836401704629 : list entry :=
 [(5156902474397, ([T 0;F 0;T 0;F 0;F 0;F 0;T 1447090592;F 1440421346422070;F 38423932328576],
  [T 0;F 73028471780;F 1654036018330008;T 391462823108723731338113761;F 527306363254709;T 4490129638642830771870835070;T 472232068760803607132558315;F 1466012482274;F 56532370343248;F 12146621982035;F 703987899885447;T 7717870021905584925563395083;F 357586067288026;T 4353060369235235969870015483;F 1373125202328496;T 8199793492757446569910593264;T 14757730249273659786900022023;T 14293637216395105337765269860;T 3004979134745791699882160082;F 1113918697692395;T 11698348830540288797954572681;F 20688346657414;T 10256069478346785572210276282;F 589503762811;T 1876759963475706627610012357;T 758689233184086709889150362;T 11545138272744036998357361187;F 192319203764044;F 443302343429816;F 1633043246272839;T 17201262611586388161891708428;F 148462955437748;F 409321499632189;T 4947295550388807813083799189;F 49527963361216;T 751605257989218174934442978;F 1281812676413979;F 1354811767048762;T 18350479469792381089250798703;T 2268980913202035658531023070;T 5980814859705652824490275752;F 1669451143454768;T 99213391588964614312797283]))].

Definition cert_fr_mod : list entry :=
 [(13818364434197438864469338081, ([T 0;F 0;F 0;F 0;T 0;F 0;T 0;F 0;T 11094248;F 12931152783534801839230600077077019871600131640238495606673391466209393121061;T 1593946109948249856766162932993389112045182551403202669731831705171997105072;T 10434677155833007174083283761173197463069185962589854940496901277504659647279;T 36129665350540112331439143590279944077065282030115781514935673411149938664978;F 7769583420573698848610151436420041006370699377320395415896370185580298177398;T 194741808688895899444257663487662784373109186206908434050480465685249546;F 15196926047330328184268563235526118232569870126868993327340553797706864800417;F 12381449040844212020453468134958759939135031398475501977330348350225156166354;T 21735285312794377530161042648701611590728412957799238543684700689878629330466;T 32799609809267996565315278374668831767123417510885481262439137966151488019344;F 9403150565707831753131487074106865212069801640149398447168608559889001394366;T 24239706130936845356332070230608443435640741958063265077625556234144021102775;T 1781576203278068846182918841428083458569391532986850815123605054206933971839;T 18350283336529918541176406450118369584108415310285691280670228695431757784080;F 6237516928964045605647720297081993168076111603780461244205989799922904175181;T 7067831787239595401923990738852080830844743661437562468141042863174904631184;T 26107105422349229711269048823556993493335197250619153858110376626883382938107;F 26774883169964770212938032784937028268338499559688834911801437104171339056;T 25438148870538122432957662783726934429154938987220668382238298393967812363545;T 15496758720463981531321993212758950489814505067458102228866495273257458457434;F 1205299246802038882438883716012970758409165193887423156243563374565965898888;F 398563332661915222536123076187344821540097966658732482699337664105653999699;T 2017337887781514485418099740532838556877215813670032550564660104319566785227;T 3565915712259351771165089896266047707146735029593194793640213252849291557514;F 10367732689884938091255554810616909326613803173287991814549640457681603736247;F 11621007545723487938728004994848509171353670691499329300514022811579165226936;T 1001450664589742551226998533235588476467627470612243076887284634460335908789;F 2345700440547826149895302600489656506771783562246427638113602478843054682289;F 9410004641847334611933843371045489587272593751957737413599369757257932516027;F 5457950678864844419187183743402658827836711417049827008874326906966116396134;T 14541797445238802671182823570060564412106139974892162427700334988108353573;T 111580505786364765177688830499290987349533272673980197503941151101962712609;F 1384601570094326064892366704552839426523806389212323834271416799158152795831;F 12150843405099324798241200135001026852498375810143787740306382949158895814997;T 23833753498582475997237112827950287190451190061154049464078945862609364989737;F 21722251592741194869010106517387035873349748515784975255117375530745155078492;F 8479880239452524667222780438407674444670345850094158104416590147608551744759;T 10823870279314280775106525844258000163068937888105076867147205235517266026342;F 2340562248049010574501364664602371915728844924277085050486058501116210783779;T 8004354640854271695987791744720048006498677974243227400763884254165876092590;F 67431137169359985120064612983835581343509361577028105113624424756703908746;F 21672071980318063488289360361375334777548070496180970794673506467177877874533;F 922971936526357718337380458695212619155642794749949003043111826145604351291;T 3197173240559292826328827552896277018134039443842675053892505312786555436;F 8506433391189234132517273942245396614391679391911053945316191897415122184127;T 29235496865531784842644610484186566234306608784406172768280835477939526252236;F 3412890789591059245903292844283052990685177591816077835867816854259220959363;F 1222800978267380960571544837202928446288201000798284603142796314707298298623;T 1131773641481497129018949360773683443882930580121180193229859667017954129771;T 12727221064463427715238151537895832213656206913441107094430650848837208337;T 12531265664124027755174299275243721531177290588160523883216694873215744336975;T 8351811743529815800971046297036072161749990715966651657682255107155162064213;T 5550063289197455687397744018023957884989001806749733120369270226561087357558;F 6604320616012154497253163351123775250905391478033644542470732041435587794520;T 457237830653888502927091242716013625681594285254207611644235400110797452309;T 19212546309386735486697843247615626060684567969864966707533284043789247938985;F 265841218577528441252814620586212442834720812712962760782563209668825972040;F 604873159409153802238108349005599124067313672803191416350078476380071112529;T 20901783875258209725766484458557119110193573347697184304107438013713717774269;T 23053577207959626007387295736800959675331006528823380459092073141976943729174;T 56660568312800710866353067902688677042112598205274098195991514192371894490;T 42733811699370211626445717831882878781671079389118684805311228131405150345749;F 3806502526343034606614603156853556817663958471937151304129404832356568975602;F 2814035093141857289207462386064941196148698892100269795974188993481093893923;F 2218619014593683485919480767819819941094640897897338536246453124899820327763;T 2012913606803734517747669830931914770746440626133010786016452693866614515636;F 379686270523873097085412483163264230439777473915046904806590753753716462506;F 17787386710248391918916563892902751052074082022246751948117654877763548126780;T 1646301305867630374863441206940494018686979736926829598862373496223176929755;T 4102944612291568007094115614954656320596452316139252870272467066160275297929;T 10457328331846273883939453475146569978815154374067519625173925289908575743767;F 235051035446735093871923918342783579506772215699032108775398262062280387739;F 9404293210712470132801225251323958798346185606431833870645360111330292744014;F 155668021203769300662834919755177909792067484751146591089154816534196896241;T 256091146223497720620396141641019300403978456617195875750866273822551138960;T 19622263805838782213750963492666985575380196595580063550816545390390889188366;T 2035719626376203167233540258028381186281059304918613531924124320976908263858;T 2565193999861369155702553287256631002762562025879349273717432041518314532531;T 31285172705363305094750963094799620257404531638225575539733882842219336428;F 826846511674696038865993166317978427194571651003042429597996845342969638431;T 38972870199500910954635119922857276446340735197389559996371434011065144188812;F 6568756503013192463814781365537708642585724723754722462742293758017418247930;F 11697876605866937850211288653859306815512518941448558683845528548018189088364;T 3439179722648620243673379281782907534504503172332701460759383626574071958242;T 848867294132387042823422356832665534683735785164124519079278579171555693421;T 8292791900061121710489574682411998988870338836317198906582600395613618147685;F 5926627992426012894345044202033587990939187561968272386310048971926503814619;F 1041315486526830285173754527764648606852356957001531351146481349704143505599;F 3676340581510280912327962891463093082788840701037638545380338927296063896895;T 7955703451831843700409931256010991867288150557326158551659898688555498085590;F 3088236158097344342581250845089460412613939065659401485583396241748376603522;F 1963770938452659289611703111378828557231060932210991196931675325453812497327;F 17195499624042264103883835518020142645241147558661634158354169157914344864269;F 12805883755155039591858095418338007928352843410549128908722152654385691279296;F 1093130822356572505525534595100858714004622955596968779660603726126291800486;F 6969087902067341677880946079920156274402548479778931749549500906487820167737;T 4270531910770199685522158892312453835129740082445242732497674317459278840913;F 3604929880838973125422959283215443664532084065168218320521032435879097805823;F 7539240257368425946150032163553443651393313209221118561340281908483292770275;F 2647363058750326699338090860353639054031170003955029053675659846578571749214;T 1775899776218832709161875347662200083162076646482105291520808725723710925357;T 15914808511709604659779848369361234512804789421245962842137516945723114081410;F 9870849860211674605494761310721980285137159344721326595464084313302724297698;F 17069149943941689179779563501256428104688751942620069295187859202570440612966;T 42179873872447488188843350180053206406570814764933402354672136236850100996191;T 17335020814094929873372622111049127199196236889556635406427449966735199742608;F 3191742911939278960609372034773524569966775485146745107203036937713852063138;F 15524490273093731424536820660295530142228649096782518829255160283019275089166;F 2997387005167628721520901694989896928212923741567203940065906951463388455931;F 3610886898352886093902871358481979878292894111810769391097467903500541966372;T 58935132380413669533852515661465914786958613680084412626746432859557716404;F 3949385212494411531884425743118884875101062699516453492912391185696689110911;F 5877043499841879163213534114859082634570053526705405363415586310414699340229;T 9114246633089785751753980620380897777015645884374479277966262042499366561022;F 5965383324767750177864931839456038810753030105747829709218075318928290264265;T 21434909429712447457523177411429520707774946722953713340508599826295805067375;F 1793415308512428322591691607088644535682575674394816236443202276626499322897;F 159441561569714877709006421895202020948238702963494954036717856474242031277;F 172895046700837676834806780968225592859649716647755520920758546038636116693;T 24689160522967465939981353845722533497638211032317154898888692468373445304644;T 40494644701071026868020972277274303882114324779932910991943530714626381914828;T 21673378533392128562062061943145409838887741127657033962091524166507038425829;T 779563668069382250430724599467411673519496436421127329615477680419506809081;T 541214677666419680030114131932975759736684038996976808679768781488429128686;F 4494681963240010831130153947380860962679610738569350314381416175435054346813;F 3262891825908203849672934260002615580598216370439497308364035928935697624035;F 16500900092440884429284652429170869233811283398498665089568499893184253800662;F 8675905109673450811288686297081534010830079485639209620673527498264959167464;F 2324461930727636258168598458321010838149458665613595481331750384434168543207;F 1199584724346884131095295308458787910188801131800179409017171760349331265791;F 563883167762388398205952328957841983518109176226366232991550731748400756004;F 46954473321492521723967385479507165073357192699345103129725056553645997615;F 5541366564227367096804623371123715827384609945949183264957697841526288031453;F 8142708202642715332644953077102046368122516321382589714895484645347391249183;F 17540902453584308359279058230335183295387689571923003810172245309375826459213;F 7798113784526241092533174117567665481985566115623121120033784604009385203967;F 3549626383774743709615359920437240242687011048738669134370215935365281022627;F 5419304005007815989006129027533952299354640429499267646690864583816404300941;F 7562124654753342557101528830888262604505388016821537645343028356953415429972;F 21539477845262088990798635498829284203031558086971024243202218140609423474809;F 10500681285953456167758616047792437778448788581902262904201655093613232033180;F 1786058707472069912946893359447479671460195342792788905728639615174519540967;F 17924207615237700151001920639232582633835083598099632470995780133299619399940;F 2808487876288382341414664614272251886100953114776088999204457204597398621819;F 7627452198701742386348939256082739986746083799449942801102394568333243337551;F 3259020517889675457526039833248114150660322270219894969442608625287054044287;F 622968414935321661291528656970597879112122044919376386692836303089121173258;F 16005762086630939726491918005591792546533378682211788568743159713217058687067;F 19575304728400655039266032827639997763483582636459133392319071652937382116692;F 14954628651085253616463431879398974886221662612938637504757297473211474164270;F 4590137519499518785391708691199446866090888677803781215189857656608799394385;F 6210045454902400515236663021521166389460673430993342396943509288973460095096],
  [T 0;F 16165587288362616707920763639162090134193059927275503713066419440776747514958;T 70941965301690741347610282776555299213138947516743301452879986865250647711305447188412598331577468877210005219614582937126003005357763409610787668596384;T 17142817619809983739057799940040294683342999371587309337090257135353974626388969850759089481943101777019520163698206518630394812159008201158715603045796;F 2426842926767541311626789636639200531515174708218646150036372641114102423189;F 12153940865779239510031226977251839677690878650351456811375368740009898863110;T 297003945636290026214333990120297976078219881139193888938366802761105122750285708991750758930580933572150530717751390012871197812163930764613042570669407;F 582378630146065902894608831416026079250985044495071087512893244922072084841;T 409523459150724739867877539210386912798005381617356128973396752486836810905795512841947744381102566191999602244367759540235468549799010502906039878119849;F 3680106249697180029076657033249580364464634904213392239054211851518805910644;F 7113014244201506168504204569478467019710498849538043398615622540046940827769;T 292462891738273197461699381127704479212491742464041865817629946918886657159765054175795703795862910560610002768833714575855044352979374145656238972371903;T 281693992251662446910775613124941435209304780079837357235847576382704672036440634638820993481946491929484399975526047246655706325862062064250456556554942;F 21447369400191579579991368237037903734061533038263226048078092457283566232694;F 6940099303696332963636943761681770646062289649791083469354465070920694381209;T 155309868609372595558761397501048376867421581172159009907475331275493615832749656354008664759453639234811791111886920718706189195421529982438822212088743;F 16357097262839765889303433318050677465945563063911755349047410329040147195258;F 11762630284496405185508292194685564354881853556668286914760706256663766070298;T 5575158122168767003218719019394492935178388315054791148034426600405785062954915940331918609792500479490990096085162354105922019803081595804771548900361;F 8628914313531304047534734275065139648607415286848936412766034625815795393669;F 3904075724676737642219686105299520169828401213899959479170237814808089629553;F 8081574667471349621926412993758431402780796641124328093204937921154345156027;F 11646412378807362054253403256438198174365215823680990224085140686966649342621;T 313043622545051221570785308877764974315356006532728137920233366714548618149470444799298284598814563540288985423524680208287551909706023282390487630126815;T 2991084239920105627718286827583251219014457877445933266371287766582815409293248694201514876145471111558264077474543490273812949405877277269324118890111;T 150420969670314291334247855166652006670354110298784788063444279010632698894590356378946527750106503125754097271773269343633207615842884743123247237328849;T 110766801038085780003146819795442702065158023343976074571314392803960541466409685752118798648709958303095520265166835250518294092613640545514866487356066;T 156725525656856732113406253515278802474324334988545321462049483597319309857727362354751339335279249252504794285944556982668463675865342149904882592971330;F 1252344895627958267363493706156095119909780195743128733412896367489175899115;F 13865820855922064058356895157517978689816666554941036873654389120032443565;T 14332039581266492918964280369901991181920383709539766786054709303410222353239694903272175828808591269119696666199464969216891283308152476154139066401574;T 211051617400035059280591719605269480106356644620987011871189330403861027601120921237385997921390514753295946960113483633834825671125742996415441431859407;T 52362854823118661503916856407105433177464904633136992929098138657089061539850842968377611276423736379333784401118044467093909715115446123131482816848160;T 53220532606819168450922685181856631603329267162429114568736590069335782449259720198285975615697958813353324641616160169953671221318796661266923154370563;T 175517273509413622290018208084301791638835991249271674889429483917928688083168938312499992724975852101871865096827514831610281209378730862150593497654260;T 23294590647580350327876172156333142804674653716331348102496154550572836318691088402497553631147307241024719469170428209891677097054820475203029114527938;F 9161434269660672399031902016002724177848930836628092323816924321041857221204;F 12830697363262136353817184232089687902146710326771542286018517374749058858176;T 411723593586284155419734376381064564261685806518334007841313964713652538602620531415369312301461086922831614028057751294833229030530074537152729943768883;T 315160340347765870085898559262446814258010476731906130100125224773849220990558404853003677139323336855630934400042487392703233477505935645193612888519965;F 6096682584705130830368985332043033808394824174104281898430550164656090274937;T 21951067478163557945099632239943019446860723797293685797747035814601434430696868153678067924385539154587849966353396362231653698719744475721837885175338;F 410418457194825452280761692980795497732548183225762155842326499520578499513;T 1154132692119083893800968192302429048443135423208028058479992972220177319669772000907349362186334191336270658943903467290189299308866793284945373558145;T 208240625645083750498866636707443057365669435180591319396951076764314861578198178148304494677963547644734105308736272500416904664339203658451819625807425;T 344051580321948306724634920458925094058678330192237851836958669374946909453179171026735360402262477748957704567996525902115756147930643295641279279494631;T 217358365003103225952226579716398579824176591190760025362648396203566058874279822369978593295099113412810708956480278325038183131123374490205820247943314;F 11505742291410259869167850136400207352309151629235686211718190071152185158199;F 12385528211069385124017167275177156398893732455794125582117560967301842335;T 385127698040542073821878871951039990609651577626450603585813382998260092048719735977222114239465586858017358064328279641264456335928484481106325124451399;F 3019720831225005547094232470628248828234061490518361149546099927808837560013;T 350072942180864336333956157920473462205641052278839819448285248509625362919974765713505246214167246561460885182536773221845024013296171512006328636900116;F 15820547111000921634681616064056013888094066478756192614549600691753798797301;T 104985757677225412807326446209391399249018835343259556869207455276598384387791206637034733169955713379869005509975470433664892641491711731056398994477500;T 123574808831744600442175291793435177799645846974629356627148938662876671030176542317077955315048960335724640553332682440678536887657916573319003703040373;T 5063196687701999656843990333173146167245551366472200808227921545656262820594688731328705769831223528671629530490763550122150886807940778656583892443961;T 299686657109372078158709224406769204861302322059599671105113104156698764892079078165270592632087534257054830962014954089958655634750033747624422816794491;F 14916306110633922502307248417966736072765872174175629081371304040891786529068;T 137799321204203028208857012816394704078406151064811258925677035220075523152796074840221346652734186255480676368199198059365581391716138330950284950799900;F 1317488520051628841112233621611967593070996214153997133751244271251000657264;F 5474921289983950448834336394183595870957566037436124138343799133193731348430;F 16188474696434765338971484987368579472880186979335508564218022207255658696696;F 13554430964945722527787893210104601763525937814436829012505358887084181981579;T 389572930737454940154906843627155628492751571860339959908383573737150974897954060768729739549189323288993721816100156558451280159378657544037895172068146;T 1154761018443047123096411664365379248749812364020087160188365180535579490842983332617189657249461805814031026043272745725599541980471511311526067227709;T 13934084904098546168952229084856647077643448150148246549918895307992536062813074460891903617799648335870620247888224072634244504239641689386400880428166;F 19667778789477614948389879650687839790769064437748288135991768227163632969798;F 5114572790229371577651991347645218832896418562480838851512501039536811240387;T 1595181231839909758923976048656939659527213126716265815688285118514286534265630098416413656012832062245767773805354939667285468304992952247454177846555;F 21629932382043948849679912622636575656141409232911495145122697903810895464810;T 32283941947139730059365079525471688920432915997237780710851369828140688033030745365224766894116303138958544888058816493532791381031403623896548899415338;F 18594298349173563291024338133736443978120459572249153369470657640866191067997;F 25575435354571661081566239045145436101040718725026000341992420830491836011;T 276657095327270873805532525230010715536495112156086908462978015823884637563853844732612609901025063225494760094723036322862351697513881487452040821675983;F 1614159068388552169931835828601321855843163065590648941101127513137590836308;T 329711464410522580913067579521267729998837519220143850513586846402306882217028748864629583134565215428400885080721413113563726978309794640024240526687560;F 57513011892752776962328868284857583012770508564194364207145979607338296;T 253518448656103019613213268514047675956073181606575799858883367200651387532714283950893335664092958542902067916079362038614195291785375260292441274185044;F 9391527842076055093935820154573845197121055110231824512060247572633298342374;F 7360401978227345062479407227191430739038117809217953605470938385213643392913;T 81878866125049905665788750158567700711911870349400285884743932687671161746770073491446676986601076377146655879552034094367620103194152002945438750366828;F 642554541735277395697236792577142911445915097991100602623205107955250463968;F 2870733524408428056177735199473157241037482568717490934753628613294960145905;T 89088787293328020561723560176744265096063670917323314661714686970502299085989519233862005246200534308806099024261969986230091545104820830434477114433527;T 2710083254239121185256104213996320122599414243302846853265577820453124002564385232936154744417220779220895656839563098213121074679053015631144422581936;T 174364933246563120650557178420972254720045470692360073141340238358666803494414084652263077240676301799429927660791893447389726322352045887323623627714004;T 192718739663745187784715373993456072389314362998716108063840732454003422410804100100231120179112865042891987836375112782991374497917090882435852392533390;T 270197365215448828897481917961588046756158599715045687581138809175389418653822718620347842981259988315261761940916516495090726329385496513221718108502378;T 150509654049439067917308645324834075432499893106450481657808799848734382576718404527348617882254682077652135584186829505084852983284379359023873534467;F 3722493127069020511451937664586127890516367301343543155603530534662067981773;F 1593034933270393094089505262047765471362562134506684932607242725009065065248;F 1983838725571585187814529848561581238862665888399718445442553752470577648485;F 131489516100919203375034960463920269589835809010794528461264380810026069584;T 248889150129248143426317987561220729758211953775987673373253428851289031352057602556165173330915210879690880487537162466367795316140200069025478237558343]));
  (1670836401704629, ([T 0;F 0;F 0;F 0;F 0;F 0;T 0;F 0;F 84;T 18065631777815181303138323187593848940318396851803112923666484641608669391158;T 469277752844009056599987371560747290703635025874224525165056019913834091810;F 17999492486508870500798780070907626299277220089661243030489298370084418308794;T 2631533298931525457642173029501135846150173940099161249032566205927531828744;T 10689487962445905258613264018861057481831718295726576646345255061669438311778;T 40451744286844476504268462642029293008449323282752424486988777737514851100341;T 30567649617488897532722870038445172331108373764616215862419728317992558346374;T 29654835977265994876605126427412836038423971028568680796094947021009766225004;F 13196522739642517298794731217087939045302528704222753270272714643836327269159;T 17765284267296708382830319941323695261129659443086711422224198965557293493185;F 294682169263810291301283062321184669835267684152425796721121675441812996996;F 6970511607675583603584865742335647070741614938948634147717009469824107541058;T 19114530287917168242954473579421199375104702545051159234903877807666633129032;F 4774509294543331322877375630394882908742552007454806619528961729773829811529;F 15736230665784258246919051309102312181280182443405482224712237634157311851357;T 233518538712906801381212460720650067450010078717651980604634607907984898902;F 557230680767129701958148871045271107901837232490128920054823142851705286840;F 5885083038320898411509901868014280942854482696498895141544422210555895443384;F 1026095627916697844928724048192427828588560854560590896788019344738064475341;T 15639712783433120274573990604519138543663694857037719946587048238819068218531;T 18964992425379373961805068385300169318989238101031815501398299512338705885503;F 4715816165028070341281685811405610438916537236979186429143997328949246779965;T 1721695159371675064493891409696664561957674925109088890336168847039705808879;F 7631797871135114164210411502050039293511988076203538637615912681528928867187;F 27117184473802933506153206349575398619947485815131351435235192640290020322;T 4775848471236449910683764748629386748859440666571435555250739546004618360196;T 2662967692393196366067734444361486356169142991324903733251669160415296878606;F 13433446438929780846743203161465578455638988484934997193074525366221553163317;F 1162491525740638433753973271462560192361217839408680193935610778285465838138;T 34491441389853492075170155762575424660829563677616307508067273948636060674441;T 13742403661758954717403572106120825017162869222054526514610628602298380944593;T 2070906221150569503927364103617090843363110524683442215063268275962261953558;T 15208037297472534718194795015231641379971594023332853611718674564939233748761;T 27822438723354571004946910580497346251015192309877656108928011276959864323945;F 343267759183868620267238210916924401656993911890153805062084814075697480426;T 62189235681785999558524466246837565683165567031270591258612366320795851708;T 1661241482519982116828997315688713782510789119188379889003166914112585041805;T 1560011926978941021645578170027118125139865751064175992390890393981373090397;F 7036416661269470265333733508696199564520559857547076468028254375373499378545;T 13500103586635818482202070798822091746818487097095840034298063531202873000620;F 17068083890665398472082954236390642726428123405719201888457517607159822260300;F 990754022183158603820596000327699880239295609659241540859013967786173532126;F 1256535400352262514447816790047518000917819496466399695433209099482478337344;F 2440840047680946185655798379061686851643385613851137946130031587268624829459;F 310800865907022663812646396264401074868000577413941119453033214553701202236;F 876583657617650657785445894025292994759647137267188462275162230266671784191;F 11590977435618143391921305710282353882994489682450127318855065987137975746846;F 1089140953626693190882472179169959838072715692203920675091747867221836330522;F 47004976051248539757926790858203457161192513352665865540110783302909798422;F 21865059124995597282332700694780350703043381418530822429085821937003182271498;F 11955680398083978003399853595356391361295660972502484048005221199066362742896;F 174985360678183010075115698746234912098093998747474405348934503308100016666;F 1951762696750302019038703927475435812455822023432738532279780644506846925504;F 13467774090155736993802974253111726402820246868720639493741375681280335348011;T 5577705689205383740735581379949515071415477731370512802022874876483811189129;F 227467736138125501048265434985615706663470826492487979383151336260845690091;T 353748037552263972135890686987352966189398549500614134895682059785102146085;F 7685304881246653567288153111097409599950349288688308786206574458354080801664;T 1695183520027238680631300425269244699894171521638390528874353429853121494129;T 5904545908989719675075603152756060629487842043409930342310165614796639046734;F 2558093246236807349955924049053800052695669534954134521311134517111272572267;F 612683543482869036401819386167899117592691837719413228125181075133875258779;T 3286466460572868564442584537277551915748049105361009807477565657876528160567;F 72556634365027398378828064334679535976305298021492879655361249951358772568;F 16108568357908109368637085174450499792613308639510736986307457667051256506877;T 23520625406419628470699161675373641216912298490206319586935500604568371986100;F 4555423916849149956506907810454348323317185995727866894219522062466549361790;T 18534981681024899190853373354202734857036369320618299084433460319639302484478;F 19459763221383075100844512825159167919482278983950294281897405608055158139886;F 2363628507887081708619228261552222649413988177716095754666410064527772502800;F 41122267940039568075495149932687187726821206154643117079817975812548612958;T 1193795220948964270307925530077383283634559487956354606581000283428604603865;F 15831622292816295051212834822426605745128577310973288096650638159598399670401;F 170316291675329715296961721671801845046523108979984928022197226700250579307;T 26019079624716764528260333920632499333797081654116470049045818898618989199305;T 43051863881899618119469789807489797267205875882631455564468492576098993054113;F 19333776733586528962200755599332910980885284118396412700491291884206875881450;T 5529640090671306462086229081827752209106561421390371462252328512974224802043;F 280919624491697793864755749619091833737685809333059551544692585786380739768;T 11161263291378210295262410475407043143146627143027141520781742411323968723236;T 2753647547202125201760172863173978880331384883469993753024009648543608134815;T 479186466927199779450795085209572277365441648754285193370326436950199845734;F 9289205288865018714252059398273657029115301255555674050718968877904735248409;F 322304117272296666763995622518253365237363003696491426347284089428486564841;T 41972475144439401827730108996701326056426913392456196180661043094953016100002;T 15763696556824423942069744703460248472567693955757221560821593998261737099494;F 11072562718386182085832317027118375276470556755348716680562399598123234648;F 8314862263019568537257102556338368442748731766490190573902116390782131837826;F 4563032212653047659923929335598634734956411471869779235639517194463586203344;T 3568092248201364126628208136027551612590148765683516048527200674167284022600;T 6843086148506757685752051122278876589824168733857417978601483978213219848131;F 13322507732605032273975134663560603508588430534079101968814437178454764915928;T 20452157517548202869856756936566723478121963520920096217671593360085821789384;F 7311121709536545845324626962016861235737173136031781637610863901239968773630;T 1782787621310303796635532730837685098824913916102598815698264431527223873220;T 14327481220214007465740109762323747926537254362329423516228484909458100860527;F 17220748348941330657649924089722445889543323963402563362300239405934960503684;F 6433789637992064538809011003467018557552097236145713682364714433706772119097;F 15858321485645523428225765310756001210606071183588479877380284963244870862978;T 38083114534294948163776096747551281056850600284375889516792491695753413943292;T 75061173680083945334615086504130385882023945269199353292122754021807546374;T 30865850251856743907714239580446782240378950780338881252887499519181930201590;T 9196960917019783504769734292122640131563076526821659731863804528343788088283;T 33132563022569926361695422056612292501984236293210540454885585476346578593309;T 33204537592414374288147742523055039006294539712934505903742117488539659129447;T 42490807419837592661622463386493873247514284857260268480931575064295703776381;F 18044510568437960088854209252586551790297077914552250319284850776987756465892;F 3453607328746486259216986533948834659417810090839205180681619219438643087050;T 27835926222729614217206548460916226841801793796807367306685083406396794341;F 6843722840713385045572530509110158290487427754798662351857183004791067999086;T 1543204672360896632630302428363709147124430312939972899113729447073651834088;T 24617493329902639179170386387024994465852243585043620882181443191584316770637;F 13849937500908643976216905982821863590462230085859209849168729231732433339281;T 3247684749412197043194062147024196169764250428379206344349636079572228910970;T 15508664871763265612234296511574359481584119140257653745087295670648086142745;T 4977769651288638898028625573563844814772529398539413033585227811950852967079;F 12801780633794647822162452066088184447144598672034516229118148863760662193860;T 27985298069195978148744088573796588134932360457255607256098013508534652059173;F 7442589357801975807234670229349072598411478292868655038735782011832825812214;T 34665562837189827487820063711668994988320959308781513572116377411684274280061;T 1523415687517172941346043951980202571281892283592612264190263455947278296568;F 273933510984595305892982957030713790330837996752852836105584817793909534948;F 17707076640816656923283043031715644235757253651389452814996723503710288017624;F 2982993000784805948416985415998175043701030406572563231593322925111417002;T 13614135529504724842722129045329881173269845079564546802745636817135833923277;F 33282260546130317305075825711790010265541132301747297650585654816828578387;F 6049256252798230869458664359599459005117801962366079112795389917707588470093;T 37481097433348679836668173481814689614883101325901771552331840961051872575;T 267416294080937852720029046068982625621144590323674184444804990241109522140;F 2515543218647903139068460428450267193016332947274184421797007569341225454064;F 9893255454920804073287103722315388041015304624098948398608677587095632224013;F 424531838454936391048211682311428988797752183958392971900903312167030733837;T 8796314068572822818359188849799935111199576700290157182605755693325203945091;F 736442791284800749559937697230669293395984065200595587332807905040585334855;T 7024376882481127472590975789629746987935742381256790234919561641373579442948;T 37597985488611799371415371189746464656169538096714855094166444372469673644678;T 22384211862037892838038857673895059336202538843256266325510446738918390379464;T 38030546076768521608236830815461628719571135616556203259684284492554451761735;T 29916982810195468913431479435340232341133653859920767497181460592026412022907;T 2267718728540533367995522297498807435186295821198971934781615546991445866275;F 5335460341526071322575309557747826387656880866678612448053609499754038606174;F 1624785585815050277210068990226879367146010914969744142073586980110192683897;F 2757966607431898311067347047987536758792109097133932965862626081180134731912;F 74296730422441488771397064383045269596466234126046123095436068014785856181;F 17563898769012258899362181144712991843098536738512545916521168765324064020078;F 3774140686291576346287113714966012941389670878871614479196439884721636754371;F 752776786167823568438226425512149589647806153981500544564047322114259069072;T 3669224446893945669042587419646992138894386883544723140649818349890069887569;T 29771207014918693962782919132391899174408882780842850150460233380083914505107;T 4396505539722935032828537252187258246725817600644369418996182501281686538360;T 10798796009148268215830976086381513278957246774669725187839966264594178601872;F 4624280953511909166163191876285722413662915977552762502296229884631888021468;F 2712592955870433688574617514059372130812638537002084159332294003444058741632;F 2347306842216901138554561869562785023372560111341269675625780366991841285020;F 6427233866043019969672996310457490616976046847113418101304806775141708150163;T 13024308379416312193535316777633154597295422941941270787197245054784796027331;T 23449178932349728679017465570261710738309895662933712842767012183505664618875;F 5406533255069242957762845358459171027518386477594209885970948177878033609928;F 18570926992200689440250013380681222575901093077041031460726119652912990257209;T 17195699479597333735462796223459630215720445881527936443961728667027958760310;F 887932311476804001560851500501232824201958688821007682592832153757954045722;T 5080779368018259178558493372403446290057615331173040484409469339380498471536;F 1993066748555698805514613867419373611153314833838812192238198716489581652036;F 18872075968668018302452578078464401929093124361195497885292162876158077339065;F 4045971582560796850691168684413869126777365219955496683707984034502083922322;T 2757121672677034178645567117315138030592916697942367407406238169718525426132;T 40884597115054564200374025315925216996917068820196372884551617080194094743483;F 187258586419161253867933414961087062065136942163076430660428561978116088110;F 4376625282273864368296369931794111533773445961879445675793020359730720485057;F 4664380348373515052812290734994142590605144400383234190189913208179819648772;F 17908928293443756660411331055891558665219257822999110570995620817044384334667;F 19555859145655263923320477702166189396106627967036841092901533968505642688017;F 13983697369595694058265311753897710895405033921877263877092498760405850658763;F 6479220918001028295826327253530826443085384734478488702252211085733071540451;F 13037675231414877405335979102894815369570946642654444613059807932432055813469;F 9640047469752552617122441556761705864878603620858063059871968144959588847642;F 20114282654915480119868372583779846305024860400682640189588240183228761800284;F 5438844537682024873444140990096837981678893770660390451875376864933945423837;F 6598318321429564520411196674842671848269496264629975360519935474832286208725;F 21338518159034383008173280023537538696974357936749168284581431757395291465467;F 254718364760215625831385749741869545637294664868434185896657513638590377640;F 23134131874407856177325037991450394766509109954314110526193553794151288801;F 2792764633676086010836780226248412812439696820994315169819366480026439333215;F 15740814750337664323055679244861392035954591330141074726757846558920611386383;F 12587989705910254201852670379858445855670050382651778797274334586637847141923;F 12779127287981983844824583685307279407123827608531935470469378866914788211718;F 101572167415992760768596962725777920369662177270273424686376192150962662165;F 4155703221284810390219446175153163663272557511607454072859284992585866097389;F 13370949632602674113019078858449928873455473440044349179246328004838157412179;F 10856423300494004329778678130838545253379675018889363826652194866446744116385;F 7446653498078646808811294033271197664372686246176769994962282330678039206010;F 2921107400792056694695314206808830542683350789452963025402506304381007269251;F 16501096375225072347702947596398206998478008821403186716334057980200562155536;F 1684644864111440193292802527229842434752443093848816532206933926433577190772;F 1347949401145323940863369132852981741925861185971242870531055434518148773238],
  [T 0;F 10805798413365275378017505650065565143296730370520707959145575708765702171753;T 263368150752578612977097134650791335848023077045910915539616500017373104884740432048018098049707689050763463656044379482741172482235342824766275290263915;T 12754859077706378519736628675890933607890739581764517975778975984605855979465632747491596282085337535380757253572982508549007412784468996156229558021987;T 132843479831600234122584943726498382507114308234621150233096117427851198804252410719429539794612187828684299421007366314315369980912463909722738453201620;T 46225854816018523032082183170790187157821757039417060404039082152406818991736485008355548332272758535160819340803990149216095151554863108777451450190708;F 21064261529441704253001895323479070319410641552636744190691035935705476850998;T 7323736646853210100148201981250282357359242624253302580678722302469476745950434373817971345794679962634663761819809083788348877298270173771774599242412;T 1830828923805730195288207164985853065059437614396448501895400317176222978114212904968069012557773056635193878255630173818983101476502982977079713581820;T 161412361457639171041478930939547025748200156340750683709542641952033962213542176204412483134628910578452239336660863529680216258126509010850675542366703;T 64816475817807685172063273596314300944481610523319350876725431817683974455375795765340851750668136047800455510130108454892643425153905772772812370665961;T 167599154498548445085986872341722501918658820627433047127239095281518182823456979129126423598779019859600497099912819406317896558059887564126424782343567;F 8804007685864471499107286431035345677305930973002807543347575211559877051643;F 834749663419126382553410306754695859825125423070500102134864610659491464172;T 19286873670731700097161070011656410534728111569925104125372932318321453838276807976030084190562944968474091803466178447729754848843666786390704845915110;T 118706289327438278689194541131317076713427350439535102055723450523933098414665525627029445118328656472185864731049401746467534465033434482411621707138988;T 311766295013722294042347026556551051308894245894760049450262003327456956816001914554236836857566976815363143035739351691068774788987655126787503728484908;F 5063570915498739368392083987777649764136942494558928146015139275757754369252;T 91384342996661564539387670138217885852481688949640217534263226453271895328810139694310888099979094791416244508607221929864137662200033223929259357931018;T 6551174098388164732056852061954945958978888299557820324190169591249786833967730413267377716317533741952420286601566874367985603576521212004169738106216;T 73323705152043375325849149262965931778486087077068779705347534364812591054902473544656963654168882106937053825284259837407579682332761576870700918234500;T 140392858131108042635561860103889133159396227982036807260271804457949993678256986624213328231920999336667856771680890147312958872552575066936043598356283;F 5025160197701976941028649598251450071492486527648762210130225713279664129184;T 151786930072956797349656597465823783689470737787144820444458914330242572798483477027779604728825444542547508711193416453569968198508244797563551391883777;F 2205572338014230573044514664843157161502621317691268801270682534915915303373;T 6864768639547932904339066499552466028143947404333076384509438606980806424927361138986900093509557898753416673427365062629334704807592107793978861737485;F 1864497960018929466492065608373572176208043066031280184351666192531460711720;F 399075139151681062697218772251002267691472023159277032225191964206300058638;F 2900552734561635838026589182443406536687663185810063237187119950147632956427;T 104513788082614400847756174220929259347153805204066324005626507714292473396989873905953586677129632070839204385775839469688741270101411097484488081147345;T 69282988418784883748481207622904914559108247206188202464465049802299300856836496593935867380130761521218279623100878660846787799243513122406161559451331;F 268605575548801331334441873090596178732966611669659091930374394138339877381;F 3473031888279821532822853352509057144502152372305475768321802882749978957938;T 17324116486303600152106276426638428891095267129274264089807437524876946538564300425289969977449261556380699520282842057310321523342397763841447767897230;T 119534359768123766347431858729240516385523127739218332845189770749910688129826874023299269229971722684973538396867864448392921174737923868856841017335;T 1158316619850661735795443908047781631328070843525909189329315498610843732324591797875595671695244601998425436158386878838197999270848478071211483770755;F 8599860712369127704397775466054916406485339430222941970044815872984694765312;F 1099571340076687813249946584777459614825109400372590027648011422760075803395;F 194111696455731623303175837882917482859686674788712764043246328997675;T 123131484794357726531905070178478199252569863563848786366589029773437800507496189424863316760735082479139439917358023737567176889726590941588903596519702;T 35270402137957366560060702786263072004991454916369701647567223034561651674542543970891093964477771358211192950871612992230060816732597290277147248137671;T 193260095941257069433797817806743994986731878408082650986353835575979996350087797603165053765709897224408026487374350230574607862654419233260587155160416;F 15043020265357442218134920589986088238946877209168153804771619733346662521369;T 58584793977314705160689161604651838320382864666968753481321106107746815865125104243558507498825728985013413118173854340734990629037060418037928870442145;F 12147808080443528705107039532104086826188920402429025186953212972585453871634;T 291363835130472027396118216841435832960954995132244057181399468243393248987145603651728199824396581738860566319749638906633721838547701345004208581534980;T 104538345174812504289176366538244066289579768361492297175753066920176292819263852841002282017663944980947238200729388891573343681447399867523715298101841;F 13138962270867260789887555575143803498517717035720998797639114150238357285;T 56423583866184246552965725156008139193718972063906235425803833836499489059404585104798148515053839144683788324254665310664018198701445157109373427956237;F 14414488982296248702834013372959711046249972403456451500347438984697184717688;T 264026489769063860530584457995453670906735780176370514362450407409485219317755283670298103657116281501045908909058492806213897574925151381381249950473647]))].

Definition cert_1263766531 : list entry :=
 [(3557, ([T 0;F 0;T 0;F 0;T 0;T 6960;F 61138940;T 16118101;F 34505473;T 7507248;T 813750271;T 573269542;T 1413359032;F 323950496;T 680669075;T 426877493;F 770962474;T 689686092;F 63678293],
  [T 0;T 2297480517862222;F 338083406;T 36295718460183163;T 70883537337209279;T 151224263826926648;T 18330025071263598;F 1242498785;F 967774210;T 128856036620340599;F 92247148;T 212106062889956]));
  (911, ([T 0;F 0;T 0;F 0;T 0;F 3480;F 15284735;T 1007381;F 131706618;T 868390291;F 200020535;T 1561601527;F 487217144;T 1562692460;T 1087234924;F 105243470;T 184309525;T 82016016;T 1218439430;T 2154734235;F 8762279],
  [T 0;T 230644959317149402;T 27503475019926180;F 227508735;F 282562026;F 1207321064;T 636981079507346593;T 300685058414888615;T 168204368677453308;T 18189658858632789]))].

Definition cert_35385462869 : list entry :=
 [(1263766531, ([T 0;T 0;T 0;F 0;F 0],
  [T 0;F 2036361;F 8639407313;T 2447041451925508953;F 30133052545;T 6287727828731402147;T 4120166474096349963;F 11950083396;T 5903491856948116232;F 1713687460;T 5396593011210417937;F 1550493047;F 16379087074;T 2241505043123076911;T 2472686589702790;T 1256757925410248715;F 12419611568;F 2146456374;F 1330138798;T 6907253081395787527;T 247998412758295250;F 8345857354;F 11734998422;F 6932029925;F 6343911114;F 7470102245;F 12100283940;F 4103613096;F 32001932832;T 2990594834806251644;T 4693573406805775107]))].

Definition cert_2480874801745591 : list entry :=
 [(35385462869, ([T 0;F 0;F 0;F 0;T 0;F 0;F 118969;F 203704466057039;T 1368920568938872;T 779941734330040;T 1630091882982810;F 562265657047094;T 3184325662159500;T 95041717664042;T 2562797561951311;T 3818674945157877;F 1272215333734492],
  [T 0;F 621232861014706;F 1075906577909810;F 1870390321689641;F 48208584167697;F 65641838402524;T 2967935719115530289558456804402;T 1939522763991054123328746821664;T 1383281050269669558352264645249;T 412085750960092814610452683183;F 1706838145914348;T 2691189621720914218617065351534;F 28306323640371;F 222640235082119;T 5093646840718888054914869466;F 751166739999942;F 142409781772823;F 1105896470287056;T 1140979211988505304169874599507;T 507467452310979499590848177310;F 1122973915689145;T 301338669885771329877891954329;F 160808515544361;T 122099252747170997891906050053;F 221328718085025;F 116475545923975;F 1961914031446933;F 497005923833550;F 61146061769367;T 375041936763160533199386475727;F 439839399093100;T 662306589674512480678132961629;F 192691133245412;T 196151108930256104494403665366;F 3172991321215;T 42958343434342545837019216889]))].

Definition cert_173171039 : list entry :=
 [(13327, ([T 0;T 0;F 0;F 0;T 0;F 6501663;T 333400203;T 233955552;F 133072171;F 4312273;F 118749893;F 13572357;T 13225043;F 78846340],
  [T 0;T 25285517590802;F 154886597;T 93830753343633;F 10607719;F 104667247;F 32965544;F 13280087;F 147029519;F 172733204;T 27797397980249;T 216942120180183;T 788880724353120;T 527251874837516]))].

Definition cert_13427688667394608761327070753331941386769 : list entry :=
 [(2480874801745591, ([T 0;F 0;F 0;F 0;T 0;T 0;T 0;T 830;F 2164403656065655416088293560418488183050;T 21404188846555887503100329224886960918915;F 2881126099032777876201940477347935367719;F 9327447117344386082029522527523966828;F 7356779583322453670558108502062641080160;T 6972346390873302675256312985978873148098;F 8612091227203402182147694652751520745421;F 1015077507296597477185751463301115809202;F 4948669146725301278766507144618697465272;T 6823687306146662220621785728214946611877;T 6858060394256798516376737808383229292166;F 1851212174399525324909482824891207191111;F 49370064273405951801193760333257516565;T 4165497346307685589071216832532214585567;T 75125511427251693234249307181738637632;F 7224006991425060949221806719258087969487;T 21039359175462555978675478416565610266589;F 5430781297049957838744778392871855954230;F 3594087149434458816069500191032596461039;F 26988451692760230600883145611954963110;F 13289558707070532968848254663298013399990;F 7496454025267833298428770176330807301344;T 23359230533117651718554288832936133968928;F 2672608938219014112371575799883860584811;T 19089641390993561864420914245556588431202;T 5319386741712441434370820681252405444702;F 12638131055749250208141447646210713145261;F 5838435963944915756345368827759491338855;T 16088164319243980553837255324839739817113;T 6160347398357643929284703496283738385926;T 6975985342796813980421396926685780952024;F 3019787739167186583060368739993034023789;F 12289692814988307515237633194299778028471;T 904795387647856043460636973601621950244;F 1707081670796100481145945866909361199777;F 12282684360440689233094040979661274685914;T 9934167242889282484677730783420624446744;T 1007602474560394110399594995207641643519;T 9343687768079378702706184776851229471163;T 8495705593173937674244228779812608761447;F 3626317694069606005219741606486137288018;T 9577979699470588538134147187257952245792;F 5323727284736322953284470468763063796428;T 7434930429354746082012600069523346416455;F 11458818135339871989909642673544368892012;T 8045319773614925057935159962144171696243;T 965031945249133573546176889366400755543;F 34181154870090095233375492566209083803;F 300223360802301043528114908623580682873;F 30954617722446917067542926839874013474;F 11364948929535617227264480607099088769536;F 2027046971526983642356030741589073489631;T 12618652732631688964280445693768293463009;T 18910508849067071106595375920568135016549;F 2945887891995437837572257964044779565737;F 1507493515867024606984851784504216091003;F 4935571293363178074661888177583140441729;T 7785716022297252571564907830159958726647;T 7923638709119765506712159596727536014730;T 5888379718830124448248513879755046069056;F 873502011058120339684208544778955366684;F 1026182610145709553122090212550267269332;T 2334101394516610021027080820050389853494;F 506174922055515943115026177174134902990;T 2492540381302312131947660691452247202053;T 309024479854742293156262433749990535892;F 170340240720027436406707032907440339895;F 8430247472104315853243374412267008785402;T 8230494263498432016928962181379636630506;T 8539124495444648420406083377987956288177;T 881401307863715688196847039759187273407;F 2100952148099575807637668633524458951181;F 12372719359698791929853232059447156437174;F 3058400628945263648275450299990423587312;F 56454236931028357641785821353188423750],
  [T 0;F 9142191389670395144015446400242595837569;F 148536654181491706743341001206609668129;F 2272805594650753690836647412032428085764;T 546743239958996749883120071363056417322273874445001254039918853170402113110620;T 826750857155974196444228747273670232984452827387106516419081817528993602557409;F 1430592663249443116131840150909779041470;T 4957536224198106128896254880707722023328461155157609103692577485677500528421249;F 4178097188562246003271391862560952059099;F 146273567018397684170891818474941359624;F 12566066542665552336168088976098959049063;F 199350949837499622686642920378439087844;F 6034454135264078967134728746046347023129;T 94841770254758110414580524493119601514373725532235532074218554212555390766012828;F 3167133804850208390926813001607825098580;T 90850033341160938763324648725774892626769799616511964205401204936350827864924182;F 13234318517632224931662339278572247464464;T 108890942213742945615312409924394713690905963543641358143953537001717329398016532;T 824658194390522175305735232506849999610680545297331839289662167681246814414869;T 69914960865216171790605166459661958549423163092015809107606371319860724350080048;T 2476139009410535400858282466548787996072501049960869481934739653786016824963963;F 8415201862627063351677150519903632054889;T 264899097034610537013161471510190623585617623693756488564084628352732914756117;F 3103611311970783916072765290745346026899;T 66896385248167007663542337008218351092045422407003474574223280479304724503387000;T 1234937566375157143043170673536940621187263716851466042353926200949289675446415;F 538252128777985212283990615101456799543;T 75610596077618170882477690601330352943866472249169574156962228438269159460985;F 30911258239692733546481073260684445526;T 5138297146465923892003432260601748062911012652303863167492153708338814453392243;F 2862444082589124843589159407098499825328;F 4521231478884798367967936337626865906;T 99875320485304734408537137314340625704622484295521959821995497506257581925878538;F 1575487849645940716738018708328286109901;T 83298302795459306137022550514506542827323333878402038246915330841070830169814423;F 13025599586602640746509307793827475811810;F 6797136716768409205984126574793692357917;T 1114171254121807304742465835148403304253281095971462226607170485864399366016768;F 5768584087167342287189575678397932849922;F 951555771496187578890182670359029325001;T 17043297512017161678429893756918152485610020072765401302362035762229692666363984;T 46023335478960585897203675562818654972095374883931872912635585262900747852930528;T 13707041092221282946432050687378117725916444999536887271357131163862711801062090;F 11408694341575047413209158883062664767694;T 15744626139375139112718673363143297012830484716840879549001543395008040578564836;F 10185782245048179605045779215853157858467;T 132385504234782923644020695138363040092567590088283084597786744232527635202078124;T 115468271291075529516464030704934096557316006304165542535139356974954804353824626;F 5246883860805363142767985956486525156787;T 74057833960013472042669452631920179678966322480574701514851994215458344825779225;T 37484526858288713531777279957063389296136182278521063176570152730805881025486410;T 148068035981280143732409742946594363471872221676995494992876633246900958820727055]));
  (173171039, ([T 0;T 0;T 0;T 0;F 0;T 0;F 0;F 2105317879844716866830786605674194;T 8786628190653636862054096057652837440663;F 12383143527703325076532841803084681922315;T 102325937166942840603189118888161319229;F 1898145262344720358054182904585308130031;T 16665542575966758832102225342206900672936;T 7907295364520944347766459451705765085551;F 10954900797673494710105705125088962810345;F 308216220402934329294366120089710747845;F 348879185949407375042048629041282374391;T 3690991133022174489796964742479280823862;F 12509316227374994969980384382655548402137;T 72942543089037093900186185451445698563;F 25415855503535725732341550448134220250;T 15816322323540599670369551996886874997289;T 4403291731981647021173012092192490178514;T 8367814303511828035352662246738806939087;T 10927999010865543289529245314409282397821;F 1386369699669849559360924275523980562213;T 50184882597314875021298691343372604709;T 7919204841744875321130479288612499494912;F 5913849677581390322920193789505833341646;F 1949728063968915600289920704289085506599;T 1169689603227307196168877476860792309711;T 21110349462886088396620459911526088113734;T 12558546362431294080623441076850382914078;F 7145243017533703824881910707872321903385;F 9794607079444658592294388402566762859958;T 8533803223780455626916061732560406524348;T 11272961524948734524716380974525280050663;F 1344797509213014569028569551865537778063;T 2519729289838762089330756898484439837487;F 1293191843584982505334260819170138418811;F 8291048846576942055874171819823609201707;T 16187657736091149720141761655012991755926;T 25869438820689129759808403986595994804673;F 111982866867488235073762473988080362511;T 8779813972495532518742673713806431080245;T 25589046707621821726295656970388257060529;F 10672493884055025763861440387295319424103;F 7607317123152812206902136119884308293897;T 26177419728766772932596243226689733348993;T 25896561060662821482755335626099224784983;T 21824152589353388747900239150778968250808;F 2917129505805300925783518315216790554157;F 8591431344064399613421317781138921406978;T 3416772772801328471486396891690866677615;T 2374666479363155037138828697622513608064;T 16658317265198818966343907736070164547190;T 9461369926725966637777457137673724014857;F 14048492180575149420224961833496440771;F 11198931218672522127457369653960572109355;F 9752060836281623990537417031851318281061;T 7827533201594568711976274581489318471775;T 146463133644760482671066254619176942038;F 4364425319423329801639715730145654958872;T 5507539624217617134570159750766812742600;F 7641328405015218804919697699612583796;F 3381621912875120596133464968998680721222;T 3149193620296779820533585715754120329765;F 2857137192149404853115617257652074135320;F 2011656207317084935210237785666372497213;F 12749064715302042419253579110666295824076;F 2164369408232118312270977960068758429753;T 19887372548568007211050361868545164611456;F 2547278398948362970784861541932859125138;T 805297679775613642245248206325609916803;F 2487754266788776226793709186649787677741;T 1033014558283905107232928844041873215766;T 12158738936706977531397744931389424058089;T 873430134607923850214214053551478757155;T 224697377351923673439229225203237441758;F 1407524577826950640236356131928240135092;T 3649279560699914281332975690207891663693;F 7563909040189588532822163632110648610767;T 126891093238308095065703047463218646745;T 3513674075393158362517709819264965646693;T 178232614375650599344360716252766579505;F 791241541397329491817568475505722266059;T 19690719519141787183926034414624690705600;F 2866856794653965822268220885824506017817;T 110299693748543210414169307704369505059;T 11078780697162003110167429195456092189928;F 1085348700049923626169089342389279170363;F 6989137927475658443878217455221732113541;T 705060882008569219536613018524077828986;T 21087837633127225056567648659351150530394;T 2427533979295138691650859376093272121750;T 5167565044004791017019383752462401653449;T 15842274018921343629448677833256778767010;T 99763089629214367185340665791160125152;T 12861887116022772864451443720057068922102;T 4906786370953419178969148211221213147362;T 320244939311983414808062212475720788854;T 373330021513024866826642271202036444129;F 1010911997172805040390848475024619045482;F 1183905042325493257443897508058248337781;F 1243368146627684825988730455281849987730;F 308528125181598355674471035430352542617],
  [T 0;F 7131705924737473037298335693433143117105;T 121504381813071240639235970589920791841937246396666755642499835759132910227293043;F 176650775121539495295811644793945808469;F 1860169130683244761997147653265769790001;T 106178598019990663159898700492466588672901728184425418044104437660891029025112996;F 1414130049171820688095383165645072415950;T 5192039697703743681701913005708650207159444398412432559270771677770598834854129;F 5343883860291443345762903029634906658921;F 7390359442376032910221122023643270863976;T 70193702381857149360583798864453038691463419508687791066666962403243694822208628;F 27245381092973242895766794656898699751;F 21591098164546503589913484663600504702;T 104296585620237066687599698034169903586806116861209247741908965907142542716572531;T 40977905974690246533511645077865234809640520464069612331875006854073621585421620;F 118956474462379200942000486783961267727;F 3263401476593300556128415118272686326697;F 574713084693598317367545119964669402169;F 2156935869918382999545038993033525309265;T 4637263845813601981108880599273378316032757496196310460813097224407095250859421;F 3115840337686379067044512311284315871383;T 53405753252633164297258678257713365169462923851254191704962291615421019171826543;F 423681589097697066275828215964791216901;T 75051509843802726091401576148315329600692225562494723638676157489999772420500237;T 83388207829504884248612693051915500021700176270186684059969596302754259654678105;T 35589769674178231137440049190874137607968371039782743523789181155834892607642682;T 8422991494260549163266322059741601478172634659120434249852410706786747752944002;T 89805595212220062623130405218872188951068355694205355968875938861628349781474346]))].

Definition cert_fq_mod : list entry :=
 [(13427688667394608761327070753331941386769, ([T 0;F 0;F 0;T 0;T 0;T 0;F 0;F 0;T 762390970158760084;T 40219270604139806476727712084139860590932709400578675240398875255997947571406;T 28294728186817811156832732536197957111139432595548668509905802955774783796565;T 8965179852235043698889897602605939099840229249387363298786857262435741538148;T 36438314697073037483609011269609909430903941560744074529229756860973353880772;F 7385112616351544202841149930519556858374520192131146500415549505393571489;F 1922631805167991317259252615074187925558252599643854887303475711529203600576;F 773375028134599283216930644923585146858396723235186371849510370522498496407;T 18980277320688597562824027467482158891664071920116637709782969357947233797563;F 3422249178439633872725986759998106747607223867972638968251651273341557085448;T 568266513683813495167941984776678273178040510642233330680816802123242759092;F 649190215485552284974095970788679472486619196450222573729208631898627378662;F 10066040927010811984337214233546154138381326390179489063203129760367901440575;T 29035372597258015675625506224716381779764166842400562808322934066756025529548;F 5678584911867753816533269843704990987244088977035898888472812461078278611219;F 13241734760417478652250455325111457872732218100393280365018735739223623220613;F 990698708675281135672445226622159332642349973949579841194176185631573300548;F 9769298895751990732432883012020724121087438360262921913781304667714151780531;F 19666027109207744661286775127787883791495764752655055316444909573142082275241;F 7077841004889313526543183675679004033383392433819907919122781338705661614046;T 10107340096550650091192263822379890869193856139141749267864793106145146642699;T 17672457439716320009061903932271345946216020536805335823603459829804402107544;T 41882839356683697428613266799857322557385634926035679325890597997056394110873;F 9256908831318283222902581522492569377665501278650313144548590617312493224886;F 10783610462772175516332869090695414435185542980227351800260705025050138256850;F 5261270782018966622356487034938651197550666923524288117977498085343792408493;T 190687976816714336507568884623313489359991723583512602668843740663784306528;F 1690472862170799305458312085205602424381760134455266270218495739270048919575;T 19263629459673307233873826512278977788772913089213248743915325897469713106564;F 13456369318203952313655630179408281938968756755993955747588087383416646659474;F 21238057481115245504581187622863196377509540267724470673462480791007008055969;F 2462501549037849006006104111732649544032486794865484210515281775314914021;F 81933317243755920801701048141768288529498801822227196795546435874123379901;F 9858167099472320569475434931269267529888043407902954982654649605074127730046;T 170216868253518271775058944728323896228736929328220441433689990467733537799;F 3347420754233615080794330629218803808588866565309431696236975776750011259535;T 20539062975014665460723978315162846757491411313817955805558990009078353179435;T 4258608922210222939824827370499222076413402792708142827148080654169475148354;T 28459780677942168283558663172777012620723131082550909639658462938725046459174;T 3757994215127182425126566772929099790404165911412026686663953506190463573723;T 7317229465266657859496271037170322429156276993797795242429413965450476397093;T 8820971375184734260861314685710295109099038880369202491405217940391635647611;T 9180096662004701033837376688036294719284955683383339219302179136815040038683;T 847246369851966946613913575415530100648407817490130100871717652905428103184;F 11893874317536849813414469388886538946765606102395635311302851723680607481832;T 14192061085754877962430989785714262624837522555699715159505680127885649599585;F 2956065309925635691174356604925657075535625255232759000626733875294266427596;F 6780661103165742617592110446277722121466908844381824229280673901023522130781;T 38853283663863460658978678254064902253971622484848866373756860050823528474980;F 6373628410320348062063519587989800775698675123989485974506756506581119001646;F 2323712129647310459073667225892136369243423461698213493663180396588045490069;F 1259320691931507389484748258022593238975742129493536780686998346812291314166;T 10168314669392962485548893411597072273051260702647911417851823418602722726736;F 4928494808423604534573280775097976196502970536747939250303884677358211849990;F 4742784423664809102065307773727445723167864444612269277609545430020537120634;T 2568460467963571485809780459981579219268844772185594117496838411897726888537;F 18435079889428526856972430018100250835849604929181268312025093781429815377751;T 16160175573994928376626716723850933408749120048132890696849450419981695326305;F 15699436178959316466526695097700541935847798758583448252356808461402662809709;T 5576823022684701078087161820525200168126770916690595823325168545209355428074;F 4969882664576084350341526337210644883982786783629379994667279031298319114284;T 42736784856885424901662052952268034954922464772038133031503028065594353081726;T 2170062670874600515488163212993062538431412711831584976404547136013353776603;F 625686282090693402172500325225644053545117228485230002626013379762749853986;F 7866631133795377783441082776933651837134165859918067714820543286885452827290;F 884183842966706371367050716641302708330495619301468163809311994185528169937;T 29165358370163529635188003144127073613763599613088932730441523198380146189927;T 18455221329704747776969767029518704158889587657881660894734665474660934029251;T 3258609017687681586246921787043582175360116561553729540948668711405497979102;F 6350183687602098947024112242273338900925655703713914061910178822363812978274;T 5951874513411922069744718520627897811709075578499110424812713546218611579272;T 32972982125361894670532229761074419586417565311329672559388628694083708238977;F 1943602101214982456247574213690904357380825176960181529409397748698318540849;F 44311977742570285155084983240139366328083298296482910528154869708329226899;F 12095450200543944244150990756514502134035339050688317345620698211915330631111;T 6293571536202910707612698826170251277289409893647515364371961492063123778563;F 9968198838723358866413068421690127117097606550915016272618279035836388749694;T 15888563057831466340288821724225520503391658217793255928100371224718991681650;T 3250813137306500574753450156739858597484794590624413974405897298762858281374;F 8277779611583778086260322444524345020136661391588955621538238298348649762701;F 5088276276612555477154618800956175652013808860108693787946852819257278047436;F 19279238341068848212751669378298053413001941609354898706725843754031874157173;T 1083113215287305679628195762939334215521299065346734286821561857326269955316;T 43739124854497419335123443891063210379341153699533320889671831326708621515490;F 17464366370546244700261526909535290050815566540928460900406162636271954449512;T 6000261126931941908619230840880423839682871292426732225695640493769146359036;F 304843584224295666813868733952172067733247674000549159284089313228336294633;T 470381182992509508876813918273027183520665931217505584250440272056094646215;F 3888678830605861599010538613337233405767262711713564855559225582826883926237;T 11994802453521778099344787088753919661409384108921086722037288813095394157223;F 16853986063696086166375475209553976025512216488410522296888583008319815815906;F 20602971632986919987461581092258152090689779451564060697132255262313044233614;T 1944132072665230996749679194439479896269561276640493240684430671821818862030;T 12304024377434956041349853800408436891052336810094248796564793980151628376010;F 10551747971872001153948733424223556738988932355200972723864752923817494475397;T 42138185300193387492743021000837001106671982622158163398799613460458930693292;T 23500451018377953503051808230550840172671838855289086184985926327125083550047;F 8196955453838524145774885524102720584463511442663421881862276974672376999264;F 15793686112599824514737366488683832644945546372085066721669220621348329434845;F 11399814992911803829926930339257228504103204320182779316164031759303832111854;T 9746689700687963361799233175739952397064387254767369105898319583874888039176;F 13787022578151437578586944470443300155875909950673166339674475655597698649052;F 123585579733760976149036135017082104205853642984537511731849245038829496770;T 3177522890784130422779780035870284617069411324968683740669150493915118787248;F 5167263620524888224883145569732647870454705490510379737268716118146900170813;T 291410702594731846886927675254804538940444244483984163411448743129911022975;T 7860107446086489609036390073482599153549990924622010550592923090390867130400;T 34417440468957408967813007467758146050583601455175581227323506746654273840256;F 11212595989764263438296435919555632395418281090242883840502073870426108488940;F 7368503971328255326331646383203037989277723779849702032132886586836958116892;T 11796231300190988983993937831140725491463793362046328284655056899032012524159;T 24704197565631863300287072738207474368801795311128288001227180884559760134351;F 16805593025594984021758706143130892635778648387595961801831277599814200027200],
  [T 0;F 19238074203850603232075934733970503619080248404937198273859482994282858037284;F 62364246092568038487843797424838160046389053177325094074683747031571159708;T 136917178101219868746675826814472820744562297045757818339680531750180202056018684053305348038363623672491069571263483456059813482908333412083423550669602;T 3543336779471719377532593585162476247481328092936540801919259064025333942990402947306185051504807823040852996226312031235712834524817879837037734991582;T 7180856038676055655424337685748240057293978418104469561076824461638864677717381959008462554393209003604181637906730342725264790969444117046158925579330;F 19854764971115567279117329503899493399406501039129702697745576689544002590458;T 116225440618729200049009870904689758577745921447070768679202740960305923643488003906543285799847180338189592877615336427786481826505844993373389497014;T 5742381939621605113823104079842075115616900295793811836845321481890797640655142032788654888415412969693726635248205802267640898330018932307173119703791;T 14110009326222537584096028790563147275204900983268337091409059995129363784663511209796870476260641800781227233649692130989154928207522645853938312610522;F 5897967110490847702481916213442917428185585319778630810893887287616108168628;T 125358421974410597271772335128908193074628191720672543392774746309552134427851236071479779133269823905035499515716600070957361435931176102602810911507897;F 6239438180570536747078891855689180623657337318819025567727433179191053618605;T 204435821556036046401895951042058110289213383043297840783165724273816871564553168807508690431922772904197424406964722556459625757126741885056234780890387;T 70964271047374169899712722904491439471783594611107652767690783688631624649260843793278993379673557467569722740473859662074795551959122320017791198078054;T 396354301662930366254432584545926704287557513033442361029295165775206642434571494282645554532093582661065861864391657283594337437275950052994149201625828;F 21194005487510731422657742217138350790254362867380875197387139333402698328017;T 187649114790328742720152542846475096416804347702183452443762905727627791539930250862286048959520224993276096184203882336580388650335705806131223299407350;T 101349308515009031815534182745656362516952541884784463010943234397131705530982698607836034376953982429191078432863334984192010866320822382160612506934513;T 155062201819999122220023512391162602891428333228150404136004072308459394965625316281790691372871091053926264729438750441399146240392355002010949520096642;T 101085727186517382289285113549002243657655053953629180366577764706789723630677129521404633815188660406930672520245185511327101877423601350065046570404303;F 9568166621942434385609363193396710752876752596361220734232758990171812299436;T 429382493586801860779039182899490786171032968613419864966994973876787177537532537009861098777965933089782519234144861831971294652224746081186791305828981;T 101748917579792177425301320047396301552065520802631815838697997876673892935427727820997697055343806262936991942117818913172680685521860041936848499136375;F 450066030900351227892106830109971744467914419011059414580099453239902766627;F 963413879485533681182588712563871455351703194006315502318617029392071353383;F 4892827911436993069150673133420649373922118871360394634363504552822454710564;T 400133236915922807846344532001331605116111406123404220353069154499265780916560066050272867474972640349042193129070604350517447992073523713726038110618315;F 16032858394347992172847972846626207653612161560000781415336737773026004153987;F 907860766308439626582391642477264449123918873367780896749832541878605193206;T 137976656535850427819795945159843361173196630447414090141361944720012406672766945744481145631228824679667790189302609329595994212732113236832260427010363;T 187498946696585647671801931528601083921716224592543768159289714762411087001279182966457913258331140859472283398643199938210658335068932225495044214196710;F 2321071780105949499890967879767790742486383036561060660251528666414901835963;T 259842763608987658227684019078902940889000318033080097487378100395742412626874300557982139988864725299917812015695694138700193353375407923057533066710559;F 1829365289923200008393811304950479233114588640613105560196853665248654795870;F 12354120776248382891055493941639267625312916870295669747538152181767137814836;T 200443330043944259565152408509652390480115259456397600772941134689401498800820810094275653652064187727603701731623633336993855218634973220821536579228348;F 4415738324402897667567198305437252281908639273062632948811110424498344473032;T 17477270151242583724135363425199417329402972273180046448727537627719242566106852329369922720046109033289764506785143435429752304778138133612291629695481;T 381107605265314514411641785076515414268594514695586454181210144156904262614634400636558950343217435723110469749870516039591967126519289233178912372541461;T 357372744036728320407151319778429023717537790247599592731074910701732614388762125686913594526910401789192494600002609246436621751614953771132973499821362;T 149828119646821934790639132908902149731084563023559328198148171884728770815318504776960351533147025916976046301438045250834000411743671195016040463650737;T 831269220819097050303585080039670685863400087325344580241121793783020921295799869245635885204175313851879487169183934310988923770259411449854298111940;T 19600521273765865561781912313709100268212952646987944808543355658378322313070072792566252612547282817028274191009366919985293517373572270221167374610752;F 7788071482708632741787624447571197023910315396237013001726800323698818564603;T 442448443811256492211359931338402505038871030320752176910190724238123380365207330464676791871226059228721033307896644092722904450626814878274613678397351;F 6283494016837552361838597309692007265318914215434323170786912529641310596798;T 315930467697224073958054694953338925599648527369518981881814981888160048615265525377153624580428602389550226560933982259763740765553531773460437759335543;F 11554792879921464037571689325855731782631569866938519325911827651190745523501;F 677290036752732995294574402146561265706280722812869556942536901065701776001;F 12783002693209350560933676849164065705166384565282207595337440753693032577964;T 1563080991444271068349655303835655289573922622123924609164074803364103185919907689840747004314131252324105276608550137422822968119254986044340206388471;F 32983854089765381702750112081150083665697814665664491387319612268850459384;F 3182581322879502704319461452935494540426496531127194630299055963510714370673;F 2433861866104323029454944885587996571420341828786385559948572827279626042861;T 32682416032225426298746813056435892021511046062216595748636872565863964493317328236180406022375576980882774905668918732416458078420431465083545567666829;F 4384421002997996663833707556679490580748641463215037186124302118046052694596;T 441311899845683863601617722474169791009118135735341486592634667814366279127641556563010985222269937295042605804614988901361098796454776670242867921125729;T 219211782077260224760536417423272240959804587481403189235627366803992216759359903276911906794894469810148375403449068187700287581868809545351894485695319;T 379528552699572548787421249406417357154274539412867484241708977562070537939622331323934112279862087405391879411089277022963184920355980125523116999579930;F 745034740852984266489079209528652416605513233664805342817726045022700935021;T 251177077609762295373000364833330528569775950468156187117877290341292975778296140698028771579046164073388223302155049909376482309681783271948109073892799;F 7978645153318837242997818644362297053620749598870608895034982027964787740331;F 2175059641960013375317264288928714209949038776174526500276569040368180091903;F 9535331770943615501440808578201244279339607112751828398777838249236737048249;F 3659292321267958452121918862028843841402966501978301948402503536154524839757;F 823953617861042566618496833581890983308040934151629774983674737356257637383;F 963880109071351654930592705854705844042450112492046285691606478143951959669;T 24999948086094049739885567057330961247065243089281929360335777474880748373883304169609324685521058149055624775494495572840719654114684367055714349851718;F 3909479627983390655988601633494928893704392045402078763544697977998111256875;T 111855358121231920601119757220002147070910042234366600701016309699475847050027983406905241303297477371857680962125242191155944332602966439815183173642647;F 7120715964694917635992131446528931594481228767561731927987953351956133273917;T 380584769054981146864779913606901234228727762455014432414206908670223655286703794365801898774526699575260481172646040936281962518024424521153209209798059;F 16715512805194495141792168073427551564795367097859177724047493203348792188884;F 8554154729014748311369961734273684593733185496451035845171623277413825792977;F 185620808055645200174682363459428113350878400289229466007211219902767515352;T 10800664197116231476749418928268279843836156109735956402602244962067374543312664230577441309690528968322985329994707436102210022526614682451421065302;T 121155983739222939195425591780449330735978589113656605955885287698846341253471862703427506074377955097792187827500226042646323858326521032152199550020659;F 16333151554714923648973898793674199649181026852841238574525999203311337946822;F 19033774931408586328590657012650909417139505508439406342777376478276651495023;T 133859138243808698301319974022465585827872356823197744684430292580670071867157353965915990427626555408068583016686654964600514129318938632355079708114881;F 3416224906134977451830711586968265498220480881415308306556391818366557112989;T 239433375199909019063703812338789479729958118507478117508568076348575879953827742419736485947616222625305443064105166755799044925145594376032134380056274;F 5019539951369711161215805878736585252958966730779872718478754469270962675922;T 59307586277947127729611797286647715110630258648980888622713565368212447688552121656215909558012517720727316521780020955668912656583600114438470203932427;F 2408047988674285325925982512805957437989486813744520086676161955352436226351;T 35269584618791316597515183053476999291161716684833176333019393962369454415469225226648918454381604425667123510913598516771804407970372023395090522189974;F 10620919825552019306693935448814117507408878477314990827142712678069108956337;T 280220206103912485510402453568248596898992402591580034599407096521169278447277118454691022616767641942742327492465901716582779980837375246091026396194545;F 3454798889529573106887873420343300320665263365484166065471591711953653735680;F 17489274388757531908865743796447719013074622347467783732695172089998522809263;F 2618000173571616838433891175299141640088154947299929106806198910807971297448;F 21671572047955157856291648727172512520279883525453656153511330613336939409340;F 688769857737741063596562408189700140638438447326989646988709736969541764564;T 6402114885303216479047348460410945905168474746859397654258366223130353976419651092914271057447817052652718397818106468229213974624908875438124247588587;T 272776938310850913081911443012235885605605874957358620781088429032163968719783417940809945597185289520100229851351586986148334032446214675621259969697819;T 2739832481376543018288004437652615449051087930088044226775967753907288844305087357204708573658784667691327006535641781079451222743532846270592056109;T 3450510326695688630386323496189696818024548633599520749530973263789313332643745812052649198100606762805737223423856255031574030867267833550760549967552;F 4101175662373667187651981581651254160756762745515951661644363202455674075416;T 175261609490887769327597941522578567201020667055302036830293580998309067405500174586281885496915563257184981575984115654770891854022964756818615979573619;F 1685224918023440742267936951875119150722068153273506057705919428738766332901;T 1913554126274706585101583443661822323778487947489710988998712570995105194002647537231448984624057535126438213559618884354895797927946228888006885093029;T 61455573403425981748753596573013093809683181466035848098865002095627444883603676760316020298117650457181677124774701857220361873502972365107176427035310;F 8603412903470251371062279865971035188840889995792712998547915207045779290281;F 18500001262220718912597828774489444619388264172971051496616756600861358920526;T 177936208063517606484570833920090806980646991510364157547404036669416433578078080574854330162834156998609427792618252822782246200555977581780514950771458;T 1092000724200910688348777829002381105207920967358668405015357531085941724796437722599215485536616170376164942597175018286066104684515884921247319131388;F 15262667509675788151924604910758561268356434310987674712855252453398067676414;T 70110687840941272932608593448943729785787203316694513732130779003505417650908427902298347050734337088605395883809091021469440338047543971911124055645528;T 15506385983346262044578792549091430053675113395490182699105875884654571733095918145757391901950948431512722197899853615774924972525901899945312476194102;F 7028270164127046157053033086865275620635277549119812653173110337954298904049;T 202041853757891787262737269821941147749793858036380066140888391690023679009871519372969594830409081490291362487790722442403727328008113910679477654601170;T 1171153842065557189155390438107748185144556590558862757720452257278384621870021687311701283148484749364147687863965884989357653411382972939848295567047;F 419688013354223935447004355898314198517871884088799918285900916321320437467;F 156264995040666383025236983757878171932804491399449968822042152458431457629;T 6804314941870280851640468743832450884779207760054414591735029419519381931895216857113589923028874243001126452072337519045398762879720417766923433096685;T 254236552839713418722091341461228194511615525657366801624295332850672231893612533800730256056842963871651230879982474098658619258931493964445138117158789;F 15363979470037798579658459979905344018366134499033012780550712294351277644861;T 347765840246365382508585772231162581030003776757427909617337554325341608235033147771027995523671076496431648134410527053615690647917667141620688910603810;F 11471228337974495983648186100306632273564861582216511502524952715249748499143;T 93743157666611802352496880258480961131370460922559681532880024947500337948604121982106414013468171212378082238845530015594895236310357089086577068825788;F 16006992898113474160611250365742257709631458706215110925025541800392095925262;T 243862264617460076517979830057345795113167304236033923335837388115582609595811496647188954533514264523423561052368834554917614578077620466051175168157937;F 459041016850928043757344223505840925311637389904675239839110644544864946562;T 112426134905549074834504482216892080858360796669903242846905480174573567352108837330237331358652941633714439238608036545174104335527484987720016196243391;F 3696237385951330120328038913009976660879206132691367710895447337598683347774;F 571386820176648375601120324894201389603744155232952989479521362015802004821;F 7975628175663656077914145389512817919650687663466810797432486412924774450014;F 1268124104188175900228147410610557532388015127599390454492538017530420036020;T 423544144333011657675186582475091735822861456760800244269094163914655232780106509537714772830055782855901853449063153499143976639561137143980348938220788;F 807706780728004634186289179490024930730219207764371874200941797143508517788;F 7767014481816712324395367008780593448643405055076675212451459320561158913616;F 3640922097980666094516011571895792265579596148601278263011623489930139288459;T 83557283453615763392803064578946040429842726542451728351634084612502605496087029066341939601320068415860119257044794487548026054951613345668685755717625]))].
