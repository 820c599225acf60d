(** The tables lnInvF and lnInvH, src/math/maxwellJuttner.cpp lines 19-311, in units of 10^-22: the decimal
    numbers in the source, not rounded to doubles. Generated by a script from the source text. *)
From Coq Require Import ZArith List.
Import ListNotations.
Local Open Scope Z_scope.

(** lines 20-164 *)
Definition lnInvF : list Z := [
  30281132611893362140000; 30270710737323343050000; 30260277735261560390000; 30249833587056742520000; 30239378269848895540000;
  30228911765882715560000; 30218434053292817510000; 30207945081157387970000; 30197444859672666340000; 30186933346992081970000;
  30176410522045720160000; 30165876356950880320000; 30155330821813097760000; 30144773908195294790000; 30134205574955479360000;
  30123625811054499660000; 30113034585988787130000; 30102431865173335800000; 30091817636462496740000; 30081191871973729230000;
  30070554545214998040000; 30059905627439027500000; 30049245091739096300000; 30038572926340361140000; 30027889084742547250000;
  30017193556808541290000; 30006486302689721060000; 29995767319911488260000; 29985036551255195290000; 29974293996664216340000;
  29963539627055024720000; 29952773394432972150000; 29941995300003476640000; 29931205304778352170000; 29920403374025674740000;
  29909589490331889290000; 29898763629819957720000; 29887925753108888220000; 29877075850491565670000; 29866213883586252290000;
  29855339824400792810000; 29844453653627880390000; 29833555337278587770000; 29822644850377457710000; 29811722168179448640000;
  29800787253358085320000; 29789840088432106850000; 29778880643246510300000; 29767908885189133810000; 29756924794795591720000;
  29745928333418545360000; 29734919481297832360000; 29723898208499051070000; 29712864484415866250000; 29701818280616794080000;
  29690759572088927240000; 29679688322755999330000; 29668604514819350020000; 29657508109958174990000; 29646399084890093790000;
  29635277409038200960000; 29624143048201725390000; 29612995979450196240000; 29601836170612707550000; 29590663596498072430000;
  29579478221438511020000; 29568280020375472540000; 29557068959851768850000; 29545845011877571730000; 29534608146602119310000;
  29523358332653684140000; 29512095542146523640000; 29500819741534285430000; 29489530906688257160000; 29478228996698292440000;
  29466913990364287380000; 29455585855902879370000; 29444244557810033140000; 29432890065956995860000; 29421522352938569430000;
  29410141384118353440000; 29398747128887512400000; 29387339559974625660000; 29375918638904039430000; 29364484338244798420000;
  29353036626197233080000; 29341575468969032240000; 29330100838533867960000; 29318612700103301450000; 29307111019066316440000;
  29295595766255400070000; 29284066910547235100000; 29272524416573717510000; 29260968252627925780000; 29249398383533415920000;
  29237814782553015470000; 29226217411151380610000; 29214606239003413360000; 29202981229480582390000; 29191342352819331650000;
  29179689575112597310000; 29168022860448115100000; 29156342176784821870000; 29144647489618940030000; 29132938766086597940000;
  29121215971067249130000; 29109479071438539850000; 29097728030687708410000; 29085962814777786000000; 29074183391731449610000;
  29062389724947919060000; 29050581777618744720000; 29038759518833527910000; 29026922910577157570000; 29015071918421262430000;
  29003206507267904610000; 28991326640732113520000; 28979432282934376450000; 28967523399568966270000; 28955599953853088380000;
  28943661908128133220000; 28931709230011248830000; 28919741880493510240000; 28907759822899010690000; 28895763021906306630000;
  28883751440684162230000; 28871725041728679710000; 28859683787556038580000; 28847627641588617920000; 28835556565898814440000;
  28823470525657324260000; 28811369480082955620000; 28799253392287629260000; 28787122225356567280000; 28774975941365350530000;
  28762814500753117740000; 28750637866768209430000; 28738445999230415320000; 28726238861466746320000; 28714016412213796410000;
  28701778615497390850000; 28689525430614426500000; 28677256818471730250000; 28664972739766567680000; 28652673155419656760000;
  28640358025302266040000; 28628027309911820990000; 28615680968849583900000; 28603318963018327100000; 28590941250940096200000;
  28578547793153510350000; 28566138547768025190000; 28553713475955628810000; 28541272535602177920000; 28528815685203556820000;
  28516342885378520580000; 28503854091993514610000; 28491349265629066780000; 28478828364921855430000; 28466291346334222640000;
  28453738168432685110000; 28441168789505804070000; 28428583166620273740000; 28415981258227409610000; 28403363020026155540000;
  28390728410285523960000; 28378077385074229610000; 28365409902848690570000; 28352725918344887650000; 28340025389267631260000;
  28327308271262467980000; 28314574520750737110000; 28301824092975502720000; 28289056944877386530000; 28276273030667882220000;
  28263472306863999250000; 28250654728035260450000; 28237820249676652830000; 28224968825762588590000; 28212100412159601960000;
  28199214962147953760000; 28186312430848641240000; 28173392771971563770000; 28160455939822175430000; 28147501887331922710000;
  28134530568984494890000; 28121541937910401470000; 28108535946706716400000; 28095512548817573870000; 28082471697005608750000;
  28069413344103697480000; 28056337441794583220000; 28043243942696149950000; 28030132798973772520000; 28017003961857258610000;
  28003857383980217400000; 27990693015619472210000; 27977510808408485590000; 27964310713541711270000; 27951092681482423430000;
  27937856663214515330000; 27924602608815050080000; 27911330468521979850000; 27898040192390562990000; 27884731730069827190000;
  27871405031014191420000; 27858060044867869460000; 27844696720546902040000; 27831315006865895430000; 27817914852748475420000;
  27804496206485724840000; 27791059016514054750000; 27777603230732119680000; 27764128797156311100000; 27750635663006817390000;
  27737123775964098730000; 27723593083094262290000; 27710043531500727630000; 27696475067583734560000; 27682887637810678070000;
  27669281188715224570000; 27655655666081129240000; 27642011015854319740000; 27628347183380506100000; 27614664114163516300000;
  27600961753169448440000; 27587240045322327650000; 27573498935041138580000; 27559738366916377570000; 27545958284933034220000;
  27532158633096419640000; 27518339354749739020000; 27504500393638400270000; 27490641692586099690000; 27476763194705973170000;
  27462864842648930800000; 27448946578573480970000; 27435008344888274220000; 27421050083279139290000; 27407071735483281570000;
  27393073242832537420000; 27379054546373002840000; 27365015587055583350000; 27350956305455564890000; 27336876641857434930000;
  27322776536407711310000; 27308655928716660810000; 27294514758536272400000; 27280352964949283740000; 27266170486919771850000;
  27251967263255560960000; 27237743232450069010000; 27223498332458491160000; 27209232501325537610000; 27194945676641184560000;
  27180637795729096770000; 27166308795459714890000; 27151958612795370480000; 27137587184058626910000; 27123194445550171670000;
  27108780333009772080000; 27094344782166217560000; 27079887728206144540000; 27065409106164337590000; 27050908850874066940000;
  27036386896603752380000; 27021843177391069450000; 27007277627256889300000; 26992690179560159260000; 26978080767485712600000;
  26963449323995734020000; 26948795781641030620000; 26934120072593006330000; 26919422128920813540000; 26904701882202850530000;
  26889959263740972340000; 26875194204574830440000; 26860406635374802780000; 26845596486380438610000; 26830763687762768650000;
  26815908169087361300000; 26801029859796821060000; 26786128688868560130000; 26771204585101737730000; 26756257476738460890000;
  26741287291843214290000; 26726293958056790420000; 26711277402795627900000; 26696237553006851860000; 26681174335292072720000;
  26666087676030572060000; 26650977501140187260000; 26635843736138640200000; 26620686306347352000000; 26605505136621867560000;
  26590300151392787240000; 26575071274915553770000; 26559818430953683330000; 26544541542860593530000; 26529240533741735850000;
  26513915326254706710000; 26498565842682917370000; 26483192004941602530000; 26467793734592248710000; 26452370952804900030000;
  26436923580345412790000; 26421451537524216490000; 26405954744424295910000; 26390433120617218240000; 26374886585330559190000;
  26359315057300372050000; 26343718455007865130000; 26328096696430254300000; 26312449699184665700000; 26296777380440423680000;
  26281079657008414860000; 26265356445190626290000; 26249607661011440380000; 26233833219969611150000; 26218033037134786940000;
  26202207027215624890000; 26186355104468481690000; 26170477182730667030000; 26154573175362960670000; 26138642995360052980000;
  26122686555213094910000; 26106703766939416410000; 26090694542229493360000; 26074658792252938260000; 26058596427711457900000;
  26042507358870374820000; 26026391495568628190000; 26010248747148576600000; 25994079022481999530000; 25977882229986652970000;
  25961658277629791060000; 25945407072850144030000; 25929128522692903580000; 25912822533650117230000; 25896489011757082290000;
  25880127862553816700000; 25863738991102662720000; 25847322301963751020000; 25830877699218772750000; 25814405086396123860000;
  25797904366594353040000; 25781375442335257020000; 25764818215674489820000; 25748232588151815920000; 25731618460736291890000;
  25714975733943372660000; 25698304307719199710000; 25681604081495241760000; 25664874954175562750000; 25648116824110429590000;
  25631329589118720950000; 25614513146474631180000; 25597667392911089830000; 25580792224586348380000; 25563887537128189290000;
  25546953225575217420000; 25529989184433552470000; 25512995307614807490000; 25495971488477238150000; 25478917619780059310000;
  25461833593724412240000; 25444719301896010500000; 25427574635343015430000; 25410399484456740460000; 25393193739075368140000;
  25375957288419774830000; 25358690021100089850000; 25341391825128103400000; 25324062587866551510000; 25306702196103612050000;
  25289310535975930700000; 25271887492987943350000; 25254432952032046520000; 25236946797330737090000; 25219428912473955680000;
  25201879180429167530000; 25184297483463136120000; 25166683703234431490000; 25149037720702400730000; 25131359416166030310000;
  25113648669258723520000; 25095905358940338030000; 25078129363460655020000; 25060320560420263900000; 25042478826685266040000;
  25024604038453532870000; 25006696071212384250000; 24988754799720367390000; 24970780098052163250000; 24952771839534872990000;
  24934729896781817620000; 24916654141670528940000; 24898544445343455680000; 24880400678215015550000; 24862222709920405170000;
  24844010409359849060000; 24825763644679006430000; 24807482283239572500000; 24789166191643174920000; 24770815235710967880000;
  24752429280479062430000; 24734008190196399290000; 24715551828313659930000; 24697060057477884240000; 24678532739526590770000;
  24659969735484796870000; 24641370905549035970000; 24622736109102798530000; 24604065204680725110000; 24585358049978967010000;
  24566614501847072740000; 24547834416278115910000; 24529017648413953270000; 24510164052512064540000; 24491273481962601010000;
  24472345789274423390000; 24453380826062196540000; 24434378443049959980000; 24415338490051450290000; 24396260815977837130000;
  24377145268811086790000; 24357991695613097070000; 24338799942516722300000; 24319569854698368520000; 24300301276404403520000;
  24280994050913635720000; 24261648020540116380000; 24242263026631363230000; 24222838909547794730000; 24203375508668720780000;
  24183872662367966730000; 24164330208024180640000; 24144747982000343000000; 24125125819629298360000; 24105463555224404540000;
  24085761022058558290000; 24066018052351876300000; 24046234477272241390000; 24026410126924360180000; 24006544830334823890000;
  23986638415451881910000; 23966690709126190480000; 23946701537112762280000; 23926670724051364300000; 23906598093468374170000;
  23886483467749726190000; 23866326668156063740000; 23846127514787274220000; 23825885826591037820000; 23805601421342479360000;
  23785274115641894530000; 23764903724898278630000; 23744490063323513420000; 23724032943916664170000; 23703532178460577920000;
  23682987577505261180000; 23662398950363106030000; 23641766105088262150000; 23621088848478266620000; 23600366986051568570000;
  23579600322047267190000; 23558788659401872500000; 23537931799751010690000; 23517029543402583340000; 23496081689340959640000;
  23475088035203715010000; 23454048377274596680000; 23432962510472372660000; 23411830228334862270000; 23390651323008744280000;
  23369425585237757480000; 23348152804350372770000; 23326832768244676330000; 23305465263377769250000; 23284050074750153310000;
  23262586985898994210000; 23241075778874162870000; 23219516234235197950000; 23197908131031170780000; 23176251246792256570000;
  23154545357509150880000; 23132790237624329950000; 23110985660016125640000; 23089131395983764070000; 23067227215233305770000;
  23045272885864620530000; 23023268174353690440000; 23001212845539105170000; 22979106662607433620000; 22956949387074190310000;
  22934740778774553860000; 22912480595842632520000; 22890168594697883900000; 22867804530027893150000; 22845388154770316370000;
  22822919220102519940000; 22800397475419273970000; 22777822668315836910000; 22755194544575072510000; 22732512848147092830000;
  22709777321132040840000; 22686987703763916710000; 22664143734389856630000; 22641245149456818990000; 22618291683487883330000;
  22595283069067932940000; 22572219036822098740000; 22549099315398750680000; 22525923631450548430000; 22502691709611934990000;
  22479403272484463900000; 22456058040611535100000; 22432655732463895330000; 22409196064413814400000; 22385678750719386620000;
  22362103503499803910000; 22338470032717898660000; 22314778046154328810000; 22291027249391119900000; 22267217345786582960000;
  22243348036453265410000; 22219419020236945710000; 22195429993693625010000; 22171380651065799580000; 22147270684260540460000;
  22123099782823900660000; 22098867633920833420000; 22074573922306970350000; 22050218330306985410000; 22025800537788935430000;
  22001320222140101630000; 21976777058240450910000; 21952170718438575040000; 21927500872524143820000; 21902767187703124920000;
  21877969328570832100000; 21853106957084245110000; 21828179732536399090000; 21803187311527145730000; 21778129347936729940000;
  21753005492896093640000; 21727815394760345850000; 21702558699076441860000; 21677235048558016750000; 21651844083052824710000;
  21626385439512869620000; 21600858751965272830000; 21575263651480613980000; 21549599766141160910000; 21523866721010627150000;
  21498064138100883010000; 21472191636340047790000; 21446248831539262980000; 21420235336360327060000; 21394150760280501440000;
  21367994709559301470000; 21341766787204048410000; 21315466592934315670000; 21289093723146290670000; 21262647770877642910000;
  21236128325769563220000; 21209534974031787340000; 21182867298403387220000; 21156124878115853960000; 21129307288854866090000;
  21102414102720103980000; 21075444888187542250000; 21048399210067860740000; 21021276629467502420000; 20994076703745960800000;
  20966798986475922990000; 20939443027399957660000; 20912008372387940190000; 20884494563394695450000; 20856901138414696280000;
  20829227631438826940000; 20801473572408801790000; 20773638487171703910000; 20745721897433524460000; 20717723320712440050000;
  20689642270291139780000; 20661478255168557180000; 20633230780011300180000; 20604899345103908640000; 20576483446298903250000;
  20547982574965235610000; 20519396217937719840000; 20490723857463790660000; 20461964971151185290000; 20433119031913555830000;
  20404185507916401400000; 20375163862521596950000; 20346053554231526840000; 20316854036632117090000; 20287564758334886150000;
  20258185162919342130000; 20228714688873115080000; 20199152769531627530000; 20169498833018226770000; 20139752302180871090000;
  20109912594531049730000; 20079979122178750470000; 20049951291769025910000; 20019828504416237180000; 19989610155637782540000;
  19959295635286240510000; 19928884327482327960000; 19898375610544569710000; 19867768856919705290000; 19837063433110986300000;
  19806258699606194010000; 19775354010804586660000; 19744348714941650780000; 19713242154014765100000; 19682033663705487130000;
  19650722573302790150000; 19619308205623580130000; 19587789876933112690000; 19556166896863618200000; 19524438568332176390000;
  19492604187456645800000; 19460663043471384540000; 19428614418640868240000; 19396457588172382190000; 19364191820127312220000;
  19331816375331454250000; 19299330507283103400000; 19266733462061031990000; 19234024478229745370000; 19201202786744544500000;
  19168267610854043960000; 19135218166002121440000; 19102053659728028820000; 19068773291564609100000; 19035376252935520820000;
  19001861727050797230000; 18968228888800651170000; 18934476904647379310000; 18900604932516518190000; 18866612121685226720000;
  18832497612669760740000; 18798260537110746960000; 18763900017656860440000; 18729415167846885650000; 18694805091989359360000;
  18660068885041127820000; 18625205632483234910000; 18590214410195489150000; 18555094284328670360000; 18519844311174871180000;
  18484463537035937810000; 18448950998089368450000; 18413305720252706180000; 18377526719045360610000; 18341612999448344560000;
  18305563555761708020000; 18269377371460107100000; 18233053419045257560000; 18196590659896805240000; 18159988044120525250000;
  18123244510393772270000; 18086358985809050100000; 18049330385714448250000; 18012157613551882380000; 17974839560692601470000;
  17937375106269894950000; 17899763117009330760000; 17862002447055829180000; 17824091937798529630000; 17786030417691898190000;
  17747816702074801220000; 17709449592985953000000; 17670927878976609990000; 17632250334920083200000; 17593415721818070900000;
  17554422786603849360000; 17515270261942093020000; 17475956866025268430000; 17436481302366979570000; 17396842259591307480000;
  17357038411219190000000; 17317068415450518340000; 17276930914943369190000; 17236624536588598390000; 17196147891281423630000;
  17155499573688604010000; 17114678162011816020000; 17073682217746943830000; 17032510285439292910000; 16991160892434535870000;
  16949632548625517270000; 16907923746194442050000; 16866032959350787390000; 16823958644064600510000; 16781699237795304480000;
  16739253159215397030000; 16696618807929910490000; 16653794564190291800000; 16610778788603879350000; 16567569821837830890000;
  16524165984318099910000; 16480565575922878630000; 16436766875670822950000; 16392768141403575300000; 16348567609462727470000;
  16304163494360979230000; 16259553988447468240000; 16214737261567020440000; 16169711460713329650000; 16124474709675920000000;
  16079025108680642390000; 16033360734023731630000; 15987479637699248960000; 15941379847019681030000; 15895059364229637830000;
  15848516166112469610000; 15801748203589858210000; 15754753401313674740000; 15707529657250727250000; 15660074842259632530000;
  15612386799659805360000; 15564463344792667240000; 15516302264574466370000; 15467901317040899660000; 15419258230883170490000;
  15370370704975402370000; 15321236407893066290000; 15271852977422513130000; 15222218020061026870000; 15172329110507631890000;
  15122183791144085950000; 15071779571506045410000; 15021113927744187410000; 14970184302074929230000; 14918988102220733790000;
  14867522700839523870000; 14815785434943253840000; 14763773605305130500000; 14711484475855296510000; 14658915273065045160000;
  14606063185318676200000; 14552925362273396730000; 14499498914206512270000; 14445780911349821450000; 14391768383211016590000;
  14337458317881581760000; 14282847661331019570000; 14227933316687100260000; 14172712143501815520000; 14117180957002575250000;
  14061336527328627270000; 14005175578751933860000; 13948694788882529670000; 13891890787857850140000; 13834760157515588740000;
  13777299430549865280000; 13719505089650181340000; 13661373566622878610000; 13602901241494547160000; 13544084441597181720000;
  13484919440634370870000; 13425402457728423670000; 13365529656447661110000; 13305297143813545890000; 13244700969287250820000;
  13183737123735075340000; 13122401538372154840000; 13060690083684176610000; 12998598568326249490000; 12936122737998707600000;
  12873258274299039790000; 12810000793549560780000; 12746345845600037800000; 12682288912604924300000; 12617825407774287960000;
  12552950674098071190000; 12487659983042829200000; 12421948533220386060000; 12355811449027656050000; 12289243779256924240000;
  12222240495676037760000; 12154796491577279930000; 12086906580294838330000; 12018565493689463700000; 11949767880599815320000;
  11880508305259687150000; 11810781245680024300000; 11740581091995094810000; 11669902144771746590000; 11598738613280883400000;
  11527084613730120830000; 11454934167456871650000; 11382281199080419580000; 11309119534612350750000; 11235442899524099580000;
  11161244916770387550000; 11086519104767649240000; 11011258875326115360000; 10935457531534342750000; 10859108265595074360000;
  10782204156611001620000; 10704738168319285490000; 10626703146773279760000; 10548091817970204340000; 10468896785423389420000;
  10389110527677414280000; 10308725395764823940000; 10227733610602725010000; 10146127260327739710000; 10063898297567612780000;
  9981038536647748316000; 9897539650731033145000; 9813393168888950857000; 9728590473102259883000; 9643122795189308372000;
  9556981213659938579000; 9470156650493019024000; 9382639867835408376000; 9294421464620334916000; 9205491873102766842000;
  9115841355309679539000; 9025459999402748457000; 8934337715950928516000; 8842464234110668508000; 8749829097710923875000;
  8656421661240399912000; 8562231085734303138000; 8467246334557674281000; 8371456169082474030000; 8274849144255297384000;
  8177413604052780061000; 8079137676821201985000; 7980009270497354645000; 7880016067706957505000; 7779145520737251740000;
  7677384846380108652000; 7574721020641970171000; 7471140773316662376000; 7366630582417227346000; 7261176668462573369000;
  7154764988614864540000; 7047381230662990159000; 6939010806848042723000; 6829638847525810741000; 6719250194661655629000;
  6607829395152855501000; 6495360693973274424000; 6381828027135106884000; 6267215014462346190000; 6151504952170321339000;
  6034680805245669077000; 5916725199620531672000; 5797620414135221667000; 5677348372282775557000; 5555890633728943762000;
  5433228385600959998000; 5309342433538073447000; 5184213192496778255000; 5057820677303297430000; 4930144492945795487000;
  4801163824598490004000; 4670857427369426995000; 4539203615763838240000; 4406180252854359769000; 4271764739149248591000;
  4135934001149544903000; 3998664479585762876000; 3859932117324395562000; 3719712346934307967000; 3577980077902795375000;
  3434709683490433374000; 3289874987214279622000; 3143449248947801089000; 2995405150626198609000; 2845714781545091165000;
  2694349623240440139000; 2541280533937015362000; 2386477732552492736000; 2229910782243804401000; 2071548573482217825000;
  1911359306642606559000; 1749310474093025702000; 1585368841769239923000; 1419500430219155229000; 1251670495101367131000;
  1081843507121787035000; 909983131391758348600; 736052206190743879600; 560012721116232639600; 381825794603131984900;
  201451650794027790900; 18849595742313361630; -166022007071551687400; -353205761929791944900; -542745266793136366100;
  -734685139963266176100; -929071047512331077400; -1125949731501099393000; -1325369039007213978000; -1527377951985385285000;
  -1732026617982476979000; -1939366381729568933000; -2149449817634470628000; -2362330763198251526000; -2578064353379159734000;
  -2796707055928397967000; -3018316707721606651000; -3242952552111035835000; -3470675277322518570000; -3701547055922924656000;
  -3935631585382081687000; -4172994129754923343000; -4413701562508508536000; -4657822410518934197000; -4905426899263066187000;
  -5156586999229669788000; -5411376473574273094000; -5669870927042111042000; -5932147856182231616000; -6198286700876785016000;
  -6468368897207085189000; -6742477931678908520000; -7020699396827745353000; -7303121048224235912000; -7589832862898669985000;
  -7880927099202489350000; -8176498358123210908000; -8476643646068054982000; -8781462439129084085000; -9091056748842766266000;
  -9405531189452329688000; -9724993046681473796000; -10049552348024812790000; -10379321934557779180000; -10714417534266782450000;
  -11054957836897145730000; -11401064570313799160000; -11752862578366243260000; -12110479900246402530000; -12474047851324681080000;
  -12843701105445204380000; -13219577778658673230000; -13601819514366573220000; -13990571569846959040000; -14385982904128036260000;
  -14788206267171617460000; -15197398290324535260000; -15613719577991469480000; -16037334800480158580000; -16468412787963691010000;
  -16907126625502362230000; -17353653749063706610000; -17808176042475099000000; -18270879935240718070000; -18741956501151666450000;
  -19221601557615402010000; -19710015765629109730000; -20207404730319109550000; -20713979101969881570000; -21229954677462918870000;
  -21755552502049360090000; -22290998971380426850000; -22836525933722242600000; -23392370792285817060000; -23958776607607235040000;
  -24535992199919083310000; -25124272251461721160000; -25723877408690247750000; -26335074384345378280000; -26958136059364665730000;
  -27593341584625421530000; -28240976482524198230000; -28901332748413177680000; -29574708951930732680000; -30261410338281726770000;
  -30961748929544197220000; -31676043626096137550000; -32404620308282137130000; -33147811938460272070000; -33905958663591042600000;
  -34679407918558546870000; -35468514530432484480000; -36273640823908510630000; -37095156728183997790000; -37933439885551809570000;
  -38788875762015075920000; -39661857760246403970000; -40552787335234681270000; -41462074112980333850000; -42390136012609671570000;
  -43337399372297475960000; -44304299079392519540000; -45291278705142099530000; -46298790644426457420000; -47327296260894975430000
].

(** lines 167-311 *)
Definition lnInvH : list Z := [
  -94027564834829249210000; -93883189213463928980000; -93748830461300194370000; -93608181283192273270000; -93463525009520189710000;
  -93326095355997882310000; -93186363784019405900000; -93045557757111083670000; -92905255314206218740000; -92764955883265152180000;
  -92626596472481406150000; -92486429233661979770000; -92345379862826604270000; -92204403485958685850000; -92065265817795953750000;
  -91924290910518173800000; -91784930141067597730000; -91644044790641387980000; -91503957548174721380000; -91363940018649234530000;
  -91224628919563706120000; -91084795308951171930000; -90944728389196765050000; -90804843966231185700000; -90663023961910216290000;
  -90523052661201912630000; -90383720604729624880000; -90242576149059985370000; -90102617302288656730000; -89962995748884306830000;
  -89823609357170237640000; -89682619994200347690000; -89542578357621280820000; -89402894875886484980000; -89261642306893911330000;
  -89121997840459137310000; -88981610191567899190000; -88841715496848436830000; -88702061134583782830000; -88561926896552911610000;
  -88421460984521118580000; -88281335873402682070000; -88141419503948217340000; -88001284826397405680000; -87860917913550462540000;
  -87720659275764543140000; -87580609482243776400000; -87440209335683345420000; -87299796164922440770000; -87159980259170986020000;
  -87019763047432476810000; -86880054709156375740000; -86739899822152271010000; -86599850030932632450000; -86459431344667798670000;
  -86319418776304281950000; -86179327221024220050000; -86038966553441262870000; -85898881456299420730000; -85758313295843340280000;
  -85618718625078908960000; -85478216799974511280000; -85338186892151046690000; -85198330160461512860000; -85058007688363304060000;
  -84917885887904525080000; -84777637187893155610000; -84637518715356705460000; -84497505737264155810000; -84357262960605918780000;
  -84217102916504380520000; -84076964617042282410000; -83936841051819737200000; -83796665664218430440000; -83656493580027415650000;
  -83516316257257283700000; -83376253652857652550000; -83236067119287433510000; -83095881199613614850000; -82955705309372405050000;
  -82815660390821825840000; -82675507751004566610000; -82535353602837275840000; -82395185896503946310000; -82255000548297836360000;
  -82114785317433653940000; -81974758040366921820000; -81834507979275361580000; -81694433837195958860000; -81554285584709003130000;
  -81414133364438541210000; -81273990474299360190000; -81133858701886101270000; -80993658477200600740000; -80853565667344593490000;
  -80713381088095861320000; -80573230837868923260000; -80433085336083127710000; -80292834627051110630000; -80152773229549882930000;
  -80012609126868703410000; -79872483084540508710000; -79732350834858323200000; -79592142997136212660000; -79452030322609132900000;
  -79311881947201454680000; -79171737594810558390000; -79031548474037753850000; -78891354918748817230000; -78751219670643397560000;
  -78611108999033474380000; -78470939684429996670000; -78330777273739897740000; -78190621150949706220000; -78050483895433515610000;
  -77910326070637800910000; -77770204085129517320000; -77629998099975887630000; -77489860963679735310000; -77349708560368775070000;
  -77209519706699678570000; -77069386032315403410000; -76929247363614603470000; -76789064610193582540000; -76648931610790906890000;
  -76508760411211271800000; -76368612154528729970000; -76228454662227784770000; -76088280249849162830000; -75948126409146752280000;
  -75807976804367838140000; -75667821499479952510000; -75527657446093199310000; -75387505808691974710000; -75247349989133116570000;
  -75107186941537618100000; -74967026043140663210000; -74826861721183703930000; -74686698424038064910000; -74546545129353134480000;
  -74406386162319062550000; -74266218109229313880000; -74126071581720651690000; -73985894349398524380000; -73845740356103268810000;
  -73705574635762234340000; -73565406576277334590000; -73425251533188040650000; -73285089541973320590000; -73144921887717044840000;
  -73004754432692955390000; -72864600138865682770000; -72724430574920306820000; -72584268154443183360000; -72444099724751769290000;
  -72303935451867724640000; -72163773948518912250000; -72023606892085281220000; -71883440862617691280000; -71743271611661505460000;
  -71603101370839858930000; -71462930512121261020000; -71322769020507976730000; -71182598888904831110000; -71042428465350626610000;
  -70902260852317207100000; -70762091952792136600000; -70621923516513938070000; -70481755436784672140000; -70341581193576079300000;
  -70201411174041750130000; -70061238504125267210000; -69921065796367551930000; -69780892072942073410000; -69640722093065656750000;
  -69500545817770396080000; -69360372937257910310000; -69220199867671139420000; -69080023774947720840000; -68939849667362853580000;
  -68799673145185584740000; -68659496264610071490000; -68519320314867844250000; -68379141458716441450000; -68238964115060323220000;
  -68098784901009805640000; -67958606337876323880000; -67818428029362465280000; -67678247708998444660000; -67538063953452702750000;
  -67397883093584445290000; -67257701467341401980000; -67117520280835689660000; -66977337411956421320000; -66837152639822630110000;
  -66696970114561802130000; -66556784482953039730000; -66416599349760749860000; -66276412562353828050000; -66136226415206174070000;
  -65996038276490489590000; -65855849736058251760000; -65715661715683335590000; -65575471831054512610000; -65435281961185358670000;
  -65295090896373926270000; -65154898946633696970000; -65014707076399460560000; -64874513156750932550000; -64734319516496574560000;
  -64594125367661829880000; -64453929466094370680000; -64313733473390284350000; -64173536283640988390000; -64033338435486051310000;
  -63893140061743318730000; -63752940701490281580000; -63612740322304750510000; -63472538962277562650000; -63332337280560038200000;
  -63192134467352207850000; -63051930767297728050000; -62911726028553331960000; -62771520565316301090000; -62631314349485220920000;
  -62491106697309932730000; -62350898340110951780000; -62210689013660775970000; -62070478719559938340000; -61930267380616728090000;
  -61790055304638986660000; -61649842037968873850000; -61509627728209386180000; -61369412234354463460000; -61229195900814223920000;
  -61088978230417225750000; -60948759824837468460000; -60808539912151378100000; -60668319146894607030000; -60528097193251113590000;
  -60387873986234659180000; -60247649640990710300000; -60107424246561906860000; -59967197546649488870000; -59826969580285780380000;
  -59686740441058629970000; -59546509972860288680000; -59406278405835939440000; -59266045422024458130000; -59125811120445250780000;
  -58985575394804303780000; -58845338350621831940000; -58705100036423640830000; -58564860312023778730000; -58424619165555142790000;
  -58284376597018390240000; -58144132517241606810000; -58003887084247205410000; -57863640153600135460000; -57723391552891287760000;
  -57583141551100691660000; -57442889945079302900000; -57302636840348766260000; -57162382060915293280000; -57022125714955418370000;
  -56881867697010415340000; -56741608023656242570000; -56601346680808415360000; -56461083556858273620000; -56320818818246172200000;
  -56180552202266138550000; -56040283835488233780000; -55900013654582680900000; -55759741679806271720000; -55619467769487060950000;
  -55479191991062926090000; -55338914263326062230000; -55198634666517332190000; -55058353030047388900000; -54918069466140435610000;
  -54777783803150565940000; -54637496099420594930000; -54497206325664402370000; -54356914408214711540000; -54216620397161738860000;
  -54076324169028957560000; -53936025733870893720000; -53795725097197770740000; -53655422163504820080000; -53515116923353920340000;
  -53374809354513077510000; -53234499418251530760000; -53094187077950563140000; -52953872294767627690000; -52813555045337468030000;
  -52673235300784018160000; -52532913016507167820000; -52392588148881342750000; -52252260660909115590000; -52111930534483912330000;
  -51971597718245909900000; -51831262181514761170000; -51690923856726254120000; -51550582753826432740000; -51410238792012243890000;
  -51269891945481962380000; -51129542180781228920000; -50989189458287924590000; -50848833715756693860000; -50708474920410457900000;
  -50568113037319886160000; -50427748011792914440000; -50287379804879455140000; -50147008365839358390000; -50006633657114951670000;
  -49866255623781938770000; -49725874226413377950000; -49585489410405214630000; -49445101134131617120000; -49304709346450694700000;
  -49164313996387480900000; -49023915024257016530000; -48883512394747423710000; -48743106045711757090000; -48602695924846512910000;
  -48462281983040025320000; -48321864161190788420000; -48181442413765136480000; -48041016668996121550000; -47900586880381181840000;
  -47760152994560378660000; -47619714940143582640000; -47479272674171442150000; -47338826122670356610000; -47198375229391427150000;
  -47057919931267679910000; -46917460169337132920000; -46776995881492533510000; -46636526993101945490000; -46496053451856447230000;
  -46355575181409101050000; -46215092121210838980000; -46074604195990183090000; -45934111343261898600000; -45793613491290683370000;
  -45653110568522867750000; -45512602499356571430000; -45372089211279833520000; -45231570637168063700000; -45091046693616672060000;
  -44950517307861099780000; -44809982399154240080000; -44669441892130317130000; -44528895707979607720000; -44388343760606030490000;
  -44247785973810129790000; -44107222258689713360000; -43966652535095516190000; -43826076715173796220000; -43685494713227068790000;
  -43544906437895676280000; -43404311803086530470000; -43263710717020131820000; -43123103088374437060000; -42982488821242075260000;
  -42841867823499164560000; -42701239996707132110000; -42560605244400049330000; -42419963467969639130000; -42279314568071910680000;
  -42138658439725080740000; -41997994982592796730000; -41857324090264969030000; -41716645657699080730000; -41575959575402610110000;
  -41435265735413224770000; -41294564025818631950000; -41153854334010633310000; -41013136545853754460000; -40872410546080581990000;
  -40731676216476992990000; -40590933437718437200000; -40450182089719666220000; -40309422047745089300000; -40168653188836476180000;
  -40027875386625257900000; -39887088511680919290000; -39746292435067203110000; -39605487024336607500000; -39464672145459922530000;
  -39323847663027025060000; -39183013438386402600000; -39042169332655944910000; -38901315203431856560000; -38760450906595611540000;
  -38619576296392841290000; -38478691224334453660000; -38337795540717176660000; -38196889092279580070000; -38055971724589032770000;
  -37915043280045912510000; -37774103599854962350000; -37633152522316506430000; -37492189883181059610000; -37351215515853954940000;
  -37210229251735227330000; -37069230919183433490000; -36928220344234303770000; -36787197350678657590000; -36646161759270268200000;
  -36505113388330947540000; -36364052053712727640000; -36222977568012035830000; -36081889741524419970000; -35940788381596600050000;
  -35799673292663798390000; -35658544276526420450000; -35517401131832033730000; -35376243654194028390000; -35235071636397288230000;
  -35093884868271176810000; -34952683135976201360000; -34811466223221638750000; -34670233909901995160000; -34528985973056589560000;
  -34387722186293552260000; -34246442319703502830000; -34105146140287665450000; -33963833411186001850000; -33822503892378015240000;
  -33681157340047240820000; -33539793506759574270000; -33398412141598932120000; -33257012989582310780000; -33115595792219387760000;
  -32974160286943337010000; -32832706207420438990000; -32691233283224492290000; -32549741239865488400000; -32408229798942165270000;
  -32266698677612861700000; -32125147588946214580000; -31983576241682061260000; -31841984340158617780000; -31700371584337467820000;
  -31558737669538814430000; -31417082286609412380000; -31275405121701007620000; -31133705856208151450000; -30991984166711232800000;
  -30850239725026904480000; -30708472197863048160000; -30566681246866607150000; -30424866528749432430000; -30283027694823267950000;
  -30141164391191868080000; -29999276258626665910000; -29857362932350941520000; -29715424042097211550000; -29573459212013530890000;
  -29431468060389831540000; -29289450199762696590000; -29147405236815808750000; -29005332772123666450000; -28863232400227230020000;
  -28721103709400610530000; -28578946281676298470000; -28436759692617417090000; -28294543511332781450000; -28152297300253668060000;
  -28010020615118533800000; -27867713004825800380000; -27725374011314309900000; -27583003169472113390000; -27440600006977406980000;
  -27298164044238726330000; -27155694794236358010000; -27013191762410269090000; -26870654446537876050000; -26728082336601581840000;
  -26585474914649869230000; -26442831654694765040000; -26300152022556213540000; -26157435475717503160000; -26014681463223037210000;
  -25871889425495036010000; -25729058794219459290000; -25586188992175062930000; -25443279433101930740000; -25300329521554254520000;
  -25157338652721703550000; -25014306212297925390000; -24871231576297470060000; -24728114110917460700000; -24584953172339485410000;
  -24441748106589606950000; -24298498249352959990000; -24155202925794889700000; -24011861450381584150000; -23868473126716347470000;
  -23725037247319806790000; -23581553093478002660000; -23438019935019434040000; -23294437030132755240000; -23150803625168503430000;
  -23007118954431247100000; -22863382239969691770000; -22719592691368646340000; -22575749505531792490000; -22431851866465866150000;
  -22287898945049064990000; -22143889898813813310000; -21999823871707571140000; -21855699993854291740000; -21711517381319027640000;
  -21567275135861900810000; -21422972344682564840000; -21278608080170240410000; -21134181399644940140000; -20989691345085619290000;
  -20845136942865170050000; -20700517203479509300000; -20555831121257521770000; -20411077674085484900000; -20266255823108152430000;
  -20121364512438684180000; -19976402668849775330000; -19831369201473607600000; -19686263001480246440000; -19541082941762544230000;
  -19395827876610007840000; -19250496641374044150000; -19105088052132035430000; -18959600905337212760000; -18814033977476924960000;
  -18668386024701233430000; -18522655782469361620000; -18376841965170906960000; -18230943265745944700000; -18084958355302265250000;
  -17938885882717505730000; -17792724474239274280000; -17646472733074793910000; -17500129238974524440000; -17353692547806092160000;
  -17207161191120001750000; -17060533675709932400000; -16913808483159684660000; -16766984069386265950000; -16620058864173452570000;
  -16473031270689366680000; -16325899665009027120000; -16178662395611316250000; -16031317782880101230000; -15883864118586286110000;
  -15736299665366644260000; -15588622656188271250000; -15440831293805019620000; -15292923750202371820000; -15144898166033839980000;
  -14996752650043330140000; -14848485278481378110000; -14700094094504403410000; -14551577107568232080000; -14402932292805894490000;
  -14254157590397409370000; -14105250904924606650000; -13956210104715383040000; -13807033021176526870000; -13657717448111921230000;
  -13508261141030208920000; -13358661816438175410000; -13208917151122485660000; -13059024781416279650000; -12908982302454323770000;
  -12758787267413660430000; -12608437186739731570000; -12457929527359890010000; -12307261711881358760000; -12156431117776242970000;
  -12005435076549486610000; -11854270872895227300000; -11702935743835491960000; -11551426877844395150000; -11399741413958541790000;
  -11247876440868564970000; -11095828995998442410000; -10943596064566571970000; -10791174578631066440000; -10638561416120115850000;
  -10485753399843580350000; -10332747296490196740000; -10179539815606830630000; -10026127608560797540000; -9872507267485509663000;
  -9718675324209239408000; -9564628249165176843000; -9410362450286021696000; -9255874271879587223000; -9101159993487000222000;
  -8946215828724155550000; -8791037924103899392000; -8635622357841905572000; -8479965138643655864000; -8324062204473884341000;
  -8167909421308313656000; -8011502581867100403000; -7854837404331064254000; -7697909531039377473000; -7540714527170240267000;
  -7383247879403610492000; -7225504994566308570000; -7067481198260057162000; -6909171733472264654000; -6750571759169931019000;
  -6591676348876497338000; -6432480489232650367000; -6272979078540815712000; -6113166925293762599000; -5953038746687773219000;
  -5792589167121133809000; -5631812716677440100000; -5470703829595495726000; -5309256842725363912000; -5147465993971619413000;
  -4985325420724325274000; -4822829158278582606000; -4659971138243255151000; -4496745186939796191000; -4333145023792023820000;
  -4169164259707845432000; -4004796395453985025000; -3840034820024536555000; -3674872809005117480000; -3509303522933207575000;
  -3343320005656342242000; -3176915182689690753000; -3010081859574224028000; -2842812720237357094000; -2675100325357526176000;
  -2506937110734680507000; -2338315385668545687000; -2169227331346592069000; -1999664999244038510000; -1829620309537795531000;
  -1659085049536948575000; -1488050872132367364000; -1316509294267726449000; -1144451695435026312000; -971869316197110089100;
  -798753256740635797500; -625094475462357190800; -450883787592135792900; -276111863856123886100; -100769229183795203100;
  75153738537517911570; 251666809656384930800; 428779903895511668700; 606503091430087779000; 784846593901627476200;
  963820785362830001500; 1143436193148676949000; 1323703498668596101000; 1504633538114835134000; 1686237303081316863000;
  1868525941087738618000; 2051510756003103453000; 2235203208362644411000; 2419614915572445846000; 2604757651994907275000;
  2790643348909225274000; 2977284094339847642000; 3164692132746190767000; 3352879864566974955000; 3541859845611505797000;
  3731644786291101745000; 3922247550683047868000; 4113681155419415814000; 4305958768393399749000; 4499093707274900988000;
  4693099437827778497000; 4887989572020708939000; 5083777865923346795000; 5280478217380019101000; 5478104663452385559000;
  5676671377623091486000; 5876192666752143579000; 6076682967777744526000; 6278156844153628402000; 6480628982014593475000;
  6684114186062461993000; 6888627375164465549000; 7094183577656660855000; 7300797926344519961000; 7508485653193812670000;
  7717262083704640174000; 7927142630961924175000; 8138142789356321849000; 8350278127969287256000; 8563564283617107753000;
  8778016953548820611000; 8993651887793497890000; 9210484881153276904000; 9428531764838573581000; 9647808397743138364000;
  9868330657357101687000; 10090114430316805550000; 10313175602591542200000; 10537530049307473060000; 10763193624210587450000;
  10990182148771292510000; 11218511400934068070000; 11448197103517268050000; 11679254912268481890000; 11911700403582821120000;
  12145549061892237930000; 12380816266735308330000; 12617517279518575270000; 12855667229981189160000; 13095281102376610250000;
  13336373721386169940000; 13578959737780684770000; 13823053613848010900000; 14068669608605384180000; 14315821762817271260000;
  14564523883840660990000; 14814789530320973120000; 15066631996763777400000; 15320064298007862740000; 15575099153627589570000;
  15831748972292873920000; 16090025836117198830000; 16349941485024312990000; 16611507301166197340000; 16874734293425472930000;
  17139633082036318520000; 17406213883359369370000; 17674486494845851330000; 17944460280227851890000; 18216144154971480870000;
  18489546572030219900000; 18764675507936392500000; 19041538449268011760000; 19320142379529101630000; 19600493766480850950000;
  19882598549960706080000; 20166462130226450180000; 20452089356860865270000; 20739484518272535140000; 21028651331826986310000;
  21319592934641113930000; 21612311875073078050000; 21906810104937592950000; 22203088972475621960000; 22501149216105362780000;
  22800990958979450160000; 23102613704371677270000; 23406016331913606090000; 23711197094699816290000; 24018153617277846480000;
  24326882894536074890000; 24637381291500974890000; 24949644544051294840000; 25263667760555117430000; 25579445424432121210000;
  25896971397640995430000; 26216238925088837240000; 26537240639956221070000; 26859968569929981720000; 27184414144330752980000;
  27510568202121676860000; 27838421000780506630000; 28167962226015292870000; 28499181002300901790000; 28832065904211292560000;
  29166604968519980190000; 29502785707038872150000; 29840595120163122540000; 30180019711088887920000; 30521045500666841300000;
  30863658042854806850000; 31207842440730009240000; 31553583363020445420000; 31900865061113834460000; 32249671386501366220000;
  32599985808612848000000; 32951791432999204550000; 33305071019817447110000; 33659807002574275710000; 34015981507082275750000;
  34373576370584912890000; 34732573161005619870000; 35092953196277063550000; 35454697563707364690000; 35817787139340762080000;
  36182202607271269910000; 36547924478868512030000; 36914933111877461510000; 37283208729352939060000; 37652731438393418630000;
  38023481248638861810000; 38395438090499482970000; 38768581833083866070000; 39142892301796829990000; 39518349295579096040000;
  39894932603762889300000; 40272622022519071190000; 40651397370874597930000; 41031238506279006370000; 41412125339702567930000;
  41794037850249692310000; 42176956099273175130000; 42560860243977121090000; 42945730550497938080000; 43331547406454840040000;
  43718291332963072900000; 44105942996104401390000; 44494483217852449640000; 44883892986449733800000; 45274153466237248010000;
  45665246006937447730000; 46057152152393294740000; 46449853648767485130000; 46843332452207038230000; 47237570735979685920000;
  47632550897089727120000; 48028255562381358960000; 48424667594140062830000; 48821770095201069140000; 49219546413576757970000;
  49617980146614710790000; 50017055144698607800000; 50416755514505045000000; 50817065621829673460000; 51217970093996507690000;
  51619453821864151880000; 52021501961444398530000; 52424099935146415420000; 52827233432662374920000; 53230888411508887610000;
  53635051097239303530000; 54039707983341784820000; 54444845830837724780000; 54850451667595825360000; 55256512787375848820000;
  55663016748616547250000; 56069951372982869130000; 56477304743685037280000; 56885065203584348480000; 57293221353098680030000;
  57701762047921008050000; 58110676396563647470000; 58519953757740754700000; 58929583737601323180000; 59339556186824253810000;
  59749861197586762170000; 60160489100417935400000; 60571430460946817930000; 60982676076556154850000; 61394216972951296540000;
  61806044400653767920000; 62218149831428419820000; 62630524954652901930000; 63043161673637717610000; 63456052101904640850000;
  63869188559430769560000; 64282563568866200040000; 64696169851730704890000; 65110000324596875030000; 65524048095265259310000;
  65938306458937381290000; 66352768894391740420000; 66767429060168073110000; 67182280790764483670000; 67597318092851450540000;
  68012535141507903800000; 68427926276481709780000; 68843485998479243550000; 69259208965486829260000; 69675089989127139130000;
  70091124031053411160000; 70507306199383901200000; 70923631745179012140000; 71340096058963151650000; 71756694667292952870000;
  72173423229374442660000; 72590277533729388180000; 73007253494913246780000; 73424347150285358410000; 73841554656832588680000;
  74258872288047239610000; 74676296430860000800000; 75093823582628482780000; 75511450348181998750000; 75929173436922328120000;
  76346989659982043010000; 76764895927438896450000; 77182889245587507080000; 77600966714267869410000; 78019125524250565460000;
  78437362954678615520000; 78855676370565559450000; 79274063220349502150000; 79692521033502830010000; 80111047418196594800000;
  80529640059020266560000; 80948296714754839340000; 81367015216199654050000; 81785793464052023440000; 82204629426839002090000;
  82623521138900599680000; 83042466698423638150000; 83461464265525737720000; 83880512060388063840000; 84299608361437137210000;
  84718751503573646030000; 85137939876448101020000; 85557171922782622180000; 85976446136737525450000; 86395761062322282700000;
  86815115291849735970000; 87234507464432748950000; 87653936264522727130000; 88073400420488230370000; 88492898703234423860000;
  88912429924860703070000; 89331992937356901050000; 89751586631336532920000; 90171209934806810790000; 90590861811973883990000;
  91010541262083162200000; 91430247318293353940000; 91849979046583829500000; 92269735544693833870000; 92689515941094047240000;
  93109319393987934890000; 93529145090343739350000; 93948992244955142890000; 94368860099530813560000; 94788747921811236100000;
  95208655004712774430000; 95628580665497811000000; 96048524244970554520000; 96468485106697379190000; 96888462636251961870000;
  97308456240483245380000; 97728465346806636660000; 98148489402517302690000; 98568527874125155820000; 98988580246710711210000;
  99408646023301425740000; 99828724724267843270000; 100248815886738693600000; 100668919064035336000000; 101089033825123628700000;
  101509159754083828600000; 101929296449597348600000; 102349443524450354200000; 102769600605053135200000; 103189767330975410400000;
  103609943354496518700000; 104030128340170513500000; 104450321964405059600000; 104870523915054931800000; 105290733891028089900000;
  105710951601905218700000; 106131176767571577800000; 106551409117861268800000; 106971648392213118900000; 107391894339338129800000;
  107812146716897938600000; 108232405291194133700000; 108652669836867588100000; 109072940136608558200000; 109493215980875895400000;
  109913497167625937600000; 110333783502050639700000; 110754074796324317700000; 111174370869359222500000; 111594671546569195200000;
  112014976659641440900000; 112435286046316100800000; 112855599550173035800000; 113275917020426533100000; 113696238311726372000000;
  114116563283965923900000; 114536891802097002800000; 114957223735950826400000; 115377558960065318400000; 115797897353518184400000;
  116218238799765973800000; 116638583186488293800000; 117058930405438061900000; 117479280352296289200000; 117899632926532245100000;
  118319988031268454900000; 118740345573150261100000; 119160705462220057900000; 119581067611795841500000; 120001431938354024000000
].
