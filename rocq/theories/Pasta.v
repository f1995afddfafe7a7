(** Generated from poseidon-base/src/primitives/pasta/fp.rs: the raw 64-bit limbs are put together into
    one integer. *)
From Coq Require Import ZArith List Arith.
From Verif Require Import Field Rust Primitives Specs NumTheory ZpField Primes.
Import ListNotations.

(** [ROUND_CONSTANTS] (pasta/fp.rs:13-1306) *)
Definition pasta_round_constants_Z : list (list Z) := [
    [24448666467656506447555018649749346340705294023832615387641453784702583464707;
     19752610610343814834081989345964253902282700341539483876504601969121084774539;
     9520793415506326549109545537894287560752519598132096386048093015534488804808];
    [22814234098357034097599682726494820560934925862581927123816510593532324971186;
     3277621627834606517208177071759088097855048183641615082769528872043050020787;
     19087113294497892618475669593723876605785307026981218038380435259594863105240];
    [17645770319151120318035258350885823104235488352935695302274836429012504407725;
     17990728141399065004015538797609951295983853332644474801890158217822768128628;
     12607949331462269429981198199999740921418125994747028428126661151190418292729];
    [10025233623562179533044093426455032352895184661359005809314430689113735312874;
     20398677688057466110325934731430812468657996794663167456321709689030080949228;
     1944662263588038198375346521900053780907777056656211622999059135594196413076];
    [12995068374816903282074967132431954020410301768622808407703775963080983755183;
     13278128079226679628648689279705910775020794457648431336050464485837924986341;
     21081768833381902942114733002158882075348844281359283013642620389621494952015];
    [20751788049060260683191405008569080723662271828149227137187075968560831545739;
     20820291785607398388900832350860967875629907105847554413318238165275470374689;
     6971878585215744613467847324629115462668098071102846520957717612260531709386];
    [21120353743307986506720883740380468652053382764895882204680310593048134053982;
     7853308243263055176258751393326645428041138029306706980470113526802326214700;
     17545076036297840030021082424260289805456380863517895917265467158332801090765];
    [10740853637774754893036062076749871837371049036966225040269105665447180116170;
     24290796201833228559129233924595614281891670608675107544294264860003803501509;
     26722678647461522072509896114724736555938247563993442152746954157222882824350];
    [20252491387019425681551488261397157776479297799360691728406809731508542196845;
     17070806525931584028449131949070191143344166668070820337429561524629464200550;
     25856554324149146992239414502939942208580094928192925471532421030223074525051];
    [17714998974036855356530338446243137421735047395517260588250413348153258772076;
     20515196301761603016197694845695272699608637099106794944737311528118558777570;
     10100400556460905874275078234698187530913105549037797180493988678937053918124];
    [12242010394227909997626655999345208835040087302065045201635069094289920778463;
     6838505804652359252670794375725267665530548946030641535297433541475260948424;
     21345718918993308853491352363460625447157796362108157527364130872100101143328];
    [26397988737034501095129796920971941795766209722106383463197090306632188634870;
     27893799443241349360688137159923920340185830261519093384488134540544971987330;
     3102550735908358465878301372253437950829524988677083749179431098369388780259];
    [2963742902601529003553690631564645593518709846059084207036841793643477514707;
     24620569969402072776192280888011017497854992833864712509770555543278833718751;
     25964807298150242099204032696543021731332498792173212422070959505270506288817];
    [15107529391758643095716794813038523751713309080738989300826699946985294497278;
     26149402682269665088314773514719203730233986608723938665192802061570851149320;
     14300403008645647974330112479193012555289445502185868105642182233848475582899];
    [1115361296285111421659408034287929280905078990986385263729179376131648187058;
     13081790983218231663826423630402269594642175266089309953018053418396572757728;
     8235521536407760690987948268259353704300918036393867110229857008864492272243];
    [10466479494603471110085160358255184712338985686117376680963274257033378093044;
     10505351732961945434077967966272614185370876266035423475161721043839572600354;
     20492577817846125120765219135044390230365666103475157006227551523345028416653];
    [9609702284002210167411637400029381999579573316818014884056109946803635903949;
     5550990570115355104018261990072269149174220738166262960442108003631983239538;
     4918607047827293284267178559571975167840449247468221935183514469924645319431];
    [22327941647779098096798004328483144118875590152725522668881024275272944414051;
     12446460574596706595202266827006842340757403121130616325345603812748836460769;
     27189681619715898792962291676467917480208426216006102231934586868572227499788];
    [8764133057432414528430129363242868018774698311348571048821261111352103735418;
     10306763858151643521688107379000096066251452823515924808024537509180120590301;
     18225419295569955709959264540894574108104760504259646575014370705413341659332];
    [5586023775523332359482150390241085503538343981397337410273960103664896061318;
     1695250059692506203013076949309928562723368039356271828712091742435374824213;
     22405375952478438071934186194392756316305143676541092887399118393981076553314];
    [10458537515857632902862111990551662021418451863412906712791662010765438376282;
     8572903186653093823393996934308987796939174550688349948095623496677370491349;
     26376584034857786080333290889331925169513316008268823389497001028535947725689];
    [7665731866090251989409614325607843738907805016631894070026948889862506085680;
     4477111727391714901720242825845081209726923645743756019648580408082893195544;
     24052818921338006126265655523211029781246213697245853990174101542814404796394];
    [2514052438055955996166191181555087722391472372457485613396039637466284876008;
     15915052994762066788134349126706966018769870301280961502696575741203715471620;
     14523364456910312064741833824384915970721514893070438053344001112980722532883];
    [8803956670977498145356652907229121212730957151393430875717273509992687004092;
     10663098851045790689902302726099843869982323815663085170094254490745070606259;
     15771722055033274898971962892589697054998768026073330065443825965063277326619];
    [24009394270524302139600659893428847877911428012188014930479974124593827497896;
     22073551841352628264163147373911841152201793863183403625155779300264423096775;
     16843535002948632653135556540328830165745557071105115915108598045919908377862];
    [1518205506066737062294516413663386248913537376120439498858484657705789460110;
     16130557973030629467749350011718803160555727145300402111387384840879624701824;
     8889838242573900603893251082243963471048473250580324046918980785903088175746];
    [26228644761030089864593236267771722990412818339075926138914275040572783608441;
     12067734632794838098229971919863170976260163840996333398973186642649256640429;
     11968821524205636087247367764990368911340209428687552700819118754759932662079];
    [17799244192253614178470363550506252907691959226278971058585973565519522161793;
     20965524183664786470659937049522521683689728298132353372217372464229072328582;
     9204911014842445442204866465738363411508466624558366623130487226017623018723];
    [11411882783508148290990071077460620643380914910024851216034708345401157598747;
     21978759908294544525641933568334804209246435087447053956459074200373748623404;
     25127379436060547953737705531945158130854594508326230558835868955168568062197];
    [21117898976989526626092655597834329944770204871453734194062340048170016405636;
     24542080513519461416891107480874811715922199187558644231625096822693720942512;
     17511538428050954712881014060315994278594220490801476991572564405719714025630];
    [8596600548778353463008917363466515479003548025312972036722931954019614269077;
     15206531116762688146228652191972227971438732578330057803903497943077798425936;
     27526727392901889312086885391525971454976492466303641804775436239311970881875];
    [6491223227212249233572575827345665488706358465091526904036815973519451608489;
     12223512212940898490637099274041460462396141039347535357045458873882555463357;
     22036410604956114612821236049340218857819342570630542797129771263395458080620];
    [16234972515157845156347254546302253756049884771079767299929154819334994133255;
     17904936716836157876541779131216061242385468767894988462968562345774780322977;
     21714179460476085146012765269900102771027760696893388661664278472625524265920];
    [202996664767557293309193718693189493265571271995400556847175225021661909888;
     8986959445646103225184427425621185795926770872760594291948007853933732792000;
     1824559386201298455184305248684703204103786463710848600444958245328319502757];
    [17867640579479410430219026801821075569829795059343949112400115471383364404896;
     26387952724174580392581390756473114542696545552443824975927734889188976493935;
     5462736757187225092378444040452191043381636359556141473260402227088438141108];
    [9480208856811007182638311148550879742594958281018928554825724116853301997792;
     21933528564352530739026731361660637398103149960791614146735347734796488340414;
     11478855577355286393052597582818071017771282214819083929459222385310951529699];
    [15834370281130057246799396451557857777874569631544913717668304384779767613917;
     1177343239477948975194428904547043009886705100079467915196431929476988807081;
     22996739028330383891353948992777232944380239608575921681316909311645742670432];
    [17386204987053402609076993442575879941304919781817311869474452788418614541727;
     2046910532113909405498164463950707851369767515812505013428432954811760163112;
     3027002536295249364241346396787631649089226644044413368581823723119849243618];
    [22463796555798298122393337302432714831486309517832433226329005335706870886022;
     16093139909428352326035948508300887536561852814676344421164056715020151135427;
     4701281547252727046539581006627542257551632215069463249064883841903070662351];
    [15371112100230032318124683879394837039102335124908980364589966494228493469493;
     22489197177224990550975217652007947153324522169767244804941102112134408773958;
     19898046680209139357692175235388232701487695418615294368386557616692749094767];
    [8233138602340976611335922557713274491144590447197118700473545358418546597423;
     18015343043302431393817374267260974421849399879961049096376579282522910903098;
     17459731862326176557673325688853573987381211996558173807115369925180115843456];
    [24776737544404051457478774969308741823958100493836141158969065152840673357397;
     1222653222320726495124625676890949415543457884672647023817524191433838002125;
     5174766406515813185946061025039426442809706287145044656599164226920930403333];
    [28839590672899370434691137676888693785941082375783302266460258723450788186630;
     5543751093906714811897680576765915074625787936362131027434315279712359735647;
     20764036161175200606119072225026247708264726802387948751044898241773602797025];
    [1507966427559352141564853156004054216859682491758980272480677656288921584252;
     5143908357570133293164356793136824859352795708314075846017536335305739758268;
     6405066646179627352427861076904574382785046749024900761009724540799944929503];
    [13329646548848589810214030722434998702919167878187100529830076307671787189030;
     12140798223605968017993545455251928507031639466049483359739821398738863714317;
     1123426788119206155697853662382898659823349284117169881662878509969857007665];
    [14700272941301614834476717222446241415916880053745541503126592891441828309075;
     27751577767961332155569569388718449453458995641851593327542081030022790135946;
     8685017931951639247878072271629227706816681017179571680191781148237758026372];
    [17140486325155741076421431384785621317085045353176282862418656418712899453342;
     12794052891001889448784208081147538998174228404124377353647115368368526667433;
     5589421268391089505252287063011531748031523352121192123219553386414426705059];
    [7492658038748180377803471835937201079265686090190699851784173596800985871311;
     23469913649715355387002531437786398775477076349192933942197300749656969088361;
     10100506287472578424519148448830729066453037214075119960001146656870971140435];
    [10164217287257375364804315090443500423644415652485292337573028353141438305399;
     25104668335434627023171107799247265555922027004417225637004202638310321485670;
     13802320727493729005353306186259619797767164209657400496728437229858936635870];
    [24105074074146205386005877815535094949130350316281993880918822342114552899377;
     362957069411782376109059307590108678665821097251360558085254402425449725939;
     13290397597949178416311393732173165043402321084800395973318021510693411893036];
    [9221553628197602243132022316241113434385676946834546331024557464025147405687;
     10331065673649768988493801904834676828635121465339227331916278551134735060;
     24563755440499193753087723524813958246371728555419963136902247545044699858052];
    [495773587546737253380211208957791018856739484459686272714408591156775533226;
     10025949538755652408447057326686968312455209744633072458871753098067243813516;
     19020854292788575517015929606675378794503544079000199376813352025276275755926];
    [4284423099217560777357298532790498889600720716769524546696491775225069813970;
     12602797463490446282380881929502040449001995487924915778638078073861479668590;
     11030072819340325957008086569050722483989820378018769796543465854398761956976];
    [14132249411171764020902065758762662772891538556804324760155311457508835122256;
     12192088718623742950402904594575689791372835141685194269642835160202143495174;
     27391271347790143998347923299613794002057030851411503757592701997333263424277];
    [10121665031657859025641405724518961006841998425119801106991171797014756668534;
     6978335704405360260988926146778780218984667476674909970083918041832196045269;
     1232918519836849515357493064902075336543017839433438653942280035576197295418];
    [9334499608319124007688298980401163581639969668932056227777778513451088364467;
     11315707902223759343019983428735833324230431230164060627792420871456112547130;
     4088888656073430494869494183863171650659958711130782374878750322338371788759];
    [25540943022233869850951192006294412471482909739471341963605942513086283211267;
     20596623269355956288285845075913308125877431973876013077532499588662081571334;
     15254526267523436565757084624356026629656166392179329587548466378471418533968];
    [21667590291885425681035705525272540792360359735511388113322906908563689034651;
     11072197561069292358643646733277415761782874589833326278649079628834784913588;
     5174237010844324521867015061887818243193942673485462111146996620749863073590];
    [1381423904657373883697234676758498273378769609483700966831593405348991768465;
     22249875322483805955217308674581458122780511141856954391600980274635058652453;
     23292926516640678798417626728403521103184362052944809482687495513788857418464];
    [23791434762914874387690401603857181905338705528761719457618218289312358538513;
     1125073942919509008669194941036521552054258393091951915744474904666591053685;
     1582426454941886229079729392420015468003993966447748623456483118861262858206];
    [14208077709653152576841535200264358604844030042569180148450778253177366213038;
     17404251520994154628897967471980527092387984975079991099027235894949616611113;
     5685704668935739599101269971868426005263681862356888241661099746461622824805];
    [10525705667981151677726225938641903054268332042572601787498355362657846169847;
     18782007581393284513334461675047571323341143474934194143087392630456744024351;
     7818013003062662844293934420454855287738206472293920123289250996786447770512];
    [1301953240918446347861410851431097928541001138247297774626570968657360739605;
     5898870366720653868941412819325880756051731723437734295811301599230037087415;
     8855813355851426594436187042951515771763966152438640837670095938720617072984];
    [18548225081836185320736208702757576460786244286058884118792650561644243150517;
     14531061880258360407839061516610491170587500640846121371006109266519432232391;
     26478650004402903178047977963783244343981356179413342953452391396292365740114]
  ]%Z.
(** [MDS] (pasta/fp.rs:1307-1369) *)
Definition pasta_mds_Z : list (list Z) := [
    [4844513277385895547578596669280046666372576567380472439333234012806535256931;
     22420227485671588580194914215361958133919537309433003325602272145024023440222;
     3505906565384614297249013623188452104971681200991017471148427242055139865693];
    [15918204248318370126242808206081613758525089148509539575126649371340283647612;
     17094040714843518372934853765548613673798971581804674915582475057795168500270;
     15812769689003694604229247543370933348074043003262912834067271177893884949626];
    [20880359470746774736726481852287259022559450533689220298394450009637377072100;
     13164192954509875252051728398669721690665762613581286296450591265062029506148;
     27123552791154096240274588421608257979835967097480491934880175221940903501553]
  ]%Z.
(** [MDS_INV] (pasta/fp.rs:1370-1431) *)
Definition pasta_mds_inv_Z : list (list Z) := [
    [20241607003636850108660836115940502736811498405161200570689148677571525758571;
     23025138405716231373797697921576452089394779832936284534415647586071677203830;
     21114470993121751666622391512824860651712966646298666275694910489305939207392];
    [3504033996059159311740309710248240756957113985486095525011622326035730769568;
     19414840413788828401816890242172608374848052910344543636209619190950790406233;
     4217244064506252798101134783726078418056517622403921972441329684677055612801];
    [21618660570245270623069891679058806165723984266207336981665295036319267277064;
     13921368629272394430455146883034263447975556794517869272975033952323006867723;
     5901593508136776399775545089468732924270234646759139436179418386042074198766]
  ]%Z.

Definition pasta_round_constants : list (list Pallas) := map (map of_Z) pasta_round_constants_Z.
Definition pasta_mds : list (list Pallas) := map (map of_Z) pasta_mds_Z.
Definition pasta_mds_inv : list (list Pallas) := map (map of_Z) pasta_mds_inv_Z.

(** [impl P128Pow5T3Constants for Fp] (pasta/mod.rs:13-23) *)
Definition pasta_constants : p128_constants Pallas :=
  {| pc_partial_rounds := 56; pc_round_constants := pasta_round_constants;
     pc_mds := pasta_mds; pc_mds_inv := pasta_mds_inv |}.
