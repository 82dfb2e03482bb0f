(** ResponseData.v -- the packaged file src/legwork/R.npy (899 abscissae f / f* and 899 values of LISA's response), as the shortest decimals that
    denote its doubles.  Generated by tools/response.py; (x, y) stands for x * 10^-11 and y * 10^-11. *)
From Coq Require Import ZArith Reals List.
From Verif Require Import Num Psd.
Import ListNotations.

Definition response_table : list (Z * Z) := [
  (1023300,30000000000); (1047143,30000000000); (1071541,30000000000); (1096508,30000000000); (1122057,30000000000); (1148201,30000000000); (1174954,30000000000);
  (1202330,30000000000); (1230345,30000000000); (1259012,30000000000); (1288347,30000000000); (1318365,30000000000); (1349083,30000000000); (1380517,30000000000);
  (1412683,30000000000); (1445598,30000000000); (1479281,30000000000); (1513748,30000000000); (1549018,30000000000); (1585110,30000000000); (1622043,30000000000);
  (1659837,30000000000); (1698511,30000000000); (1738086,30000000000); (1778584,30000000000); (1820025,30000000000); (1862431,30000000000); (1905826,30000000000);
  (1950232,30000000000); (1995672,30000000000); (2042171,30000000000); (2089754,30000000000); (2138445,30000000000); (2188271,30000000000); (2239258,30000000000);
  (2291433,30000000000); (2344823,30000000000); (2399457,30000000000); (2455365,30000000000); (2512575,30000000000); (2571118,30000000000); (2631025,30000000000);
  (2692328,30000000000); (2755059,30000000000); (2819252,30000000000); (2884940,30000000000); (2952159,30000000000); (3020945,30000000000); (3091333,30000000000);
  (3163361,30000000000); (3237067,30000000000); (3312491,30000000000); (3389672,30000000000); (3468651,30000000000); (3549471,30000000000); (3632173,30000000000);
  (3716803,30000000000); (3803404,30000000000); (3892024,30000000000); (3982708,30000000000); (4075505,30000000000); (4170464,30000000000); (4267636,30000000000);
  (4367072,30000000000); (4468825,30000000000); (4572948,30000000000); (4679498,30000000000); (4788530,30000000000); (4900103,30000000000); (5014275,30000000000);
  (5131108,30000000000); (5250663,30000000000); (5373003,30000000000); (5498193,30000000000); (5626301,30000000000); (5757396,30000000000); (5891541,30000000000);
  (6028813,30000000000); (6169287,30000000000); (6313031,30000000000); (6460123,30000000000); (6610646,30000000000); (6764675,30000000000); (6922293,30000000000);
  (7083579,30000000000); (7248627,30000000000); (7417520,30000000000); (7590349,30000000000); (7767202,30000000000); (7948178,30000000000); (8133372,30000000000);
  (8322878,30000000000); (8516802,30000000000); (8715241,30000000000); (8918308,30000000000); (9126106,30000000000); (9338745,30000000000); (9556335,30000000000);
  (9778998,30000000000); (10006850,30000000000); (10240010,30000000000); (10478600,30000000000); (10722750,30000000000); (10972590,30000000000); (11228260,30000000000);
  (11489870,30000000000); (11757590,30000000000); (12031540,30000000000); (12311870,30000000000); (12598740,30000000000); (12892290,30000000000); (13192680,30000000000);
  (13500070,30000000000); (13814620,30000000000); (14136500,30000000000); (14465880,30000000000); (14802940,30000000000); (15147850,30000000000); (15500790,30000000000);
  (15861960,30000000000); (16231550,30000000000); (16609740,30000000000); (16996750,30000000000); (17392770,30000000000); (17798020,30000000000); (18212720,30000000000);
  (18637070,30000000000); (19071320,30000000000); (19515680,30000000000); (19970390,30000000000); (20435700,30000000000); (20911860,30000000000); (21399100,30000000000);
  (21897700,30000000000); (22407920,30000000000); (22930020,30000000000); (23464290,30000000000); (24011010,30000000000); (24570470,30000000000); (25142960,30000000000);
  (25728790,30000000000); (26328270,30000000000); (26941720,30000000000); (27569460,30000000000); (28211830,30000000000); (28869160,30000000000); (29541820,30000000000);
  (30230140,30000000000); (30934500,30000000000); (31655280,30000000000); (32392850,30000000000); (33147600,30000000000); (33919940,30000000000); (34710270,30000000000);
  (35519020,30000000000); (36346610,30000000000); (37193490,30000000000); (38060100,30000000000); (38946900,30000000000); (39854360,30000000000); (40782970,30000000000);
  (41733210,30000000000); (42705600,30000000000); (43700640,30000000000); (44718860,30000000000); (45760810,30000000000); (46827040,30000000000); (47918110,30000000000);
  (49034600,30000000000); (50177110,30000000000); (51346230,30000000000); (52542630,30000000000); (53766860,30000000000); (55019600,30000000000); (56301580,30000000000);
  (57613360,30000000000); (58955810,30000000000); (60329480,30000000000); (61735110,30000000000); (63173540,30000000000); (64645500,30000000000); (66151730,30000000000);
  (67693070,30000000000); (69270350,30000000000); (70884310,30000000000); (72535940,30000000000); (74226030,30000000000); (75955470,30000000000); (77725250,30000000000);
  (79536270,30000000000); (81389420,30000000000); (83285790,30000000000); (85226390,30000000000); (87212150,30000000000); (89244170,30000000000); (91323570,30000000000);
  (93451420,30000000000); (95628850,30000000000); (97857000,30000000000); (100137100,29989180000); (102470300,30030860000); (104857800,29972420000); (107301000,29986460000);
  (109801100,29983860000); (112359500,30001260000); (114977400,29998280000); (117656400,29975140000); (120397800,30012500000); (123203100,30007860000); (126073700,29978820000);
  (129011200,29996260000); (132017200,29998200000); (135093200,29996980000); (138240900,30008800000); (141461900,29994640000); (144757900,30005420000); (148130800,30003640000);
  (151582300,30008780000); (155114100,29998120000); (158728300,30008240000); (162426600,29998740000); (166211200,29999240000); (170083900,30010020000); (174046900,30000360000);
  (178102200,30003580000); (182251900,30001500000); (186498400,30002480000); (190843800,30003640000); (195290500,29999500000); (199840700,29998520000); (204497000,29999240000);
  (209261800,30000340000); (214137600,30000620000); (219127000,30000160000); (224232700,30000120000); (229457300,29999060000); (234803700,29998980000); (240274600,29998280000);
  (245873000,29998480000); (251601800,29998880000); (257464100,30000500000); (263463100,29999920000); (269601800,29999020000); (275883500,29999980000); (282311600,30000100000);
  (288889400,29999860000); (295620500,29999880000); (302508500,30000560000); (309556900,29999680000); (316769600,30000200000); (324150400,29999840000); (331703100,30000180000);
  (339431700,30000280000); (347340500,29999860000); (355433500,30000260000); (363715100,29999820000); (372189700,29999760000); (380861700,30000060000); (389735800,29999920000);
  (398816600,29999820000); (408109100,29999760000); (417618000,29999820000); (427348500,29999820000); (437305700,29999880000); (447495000,29999740000); (457921600,29999840000);
  (468591200,29999840000); (479509300,29999740000); (490681900,29999760000); (502114800,29999720000); (513814100,29999740000); (525785700,29999620000); (538037000,29999760000);
  (550573200,29999640000); (563401400,29999700000); (576528700,29999700000); (589961500,29999620000); (603707600,29999620000); (617774400,29999620000); (632168200,29999600000);
  (646897800,29999580000); (661970600,29999580000); (677394400,29999540000); (693177700,29999540000); (709328800,29999500000); (725856100,29999480000); (742768500,29999440000);
  (760075000,29999440000); (777784900,29999400000); (795907100,29999380000); (814452200,29999340000); (833428500,29999300000); (852847500,29999280000); (872718800,29999240000);
  (893053200,29999180000); (913861300,29999160000); (935154500,29999120000); (956943500,29999060000); (979240100,29999040000); (1002057000,29998980000); (1025404000,29998920000);
  (1049296000,29998880000); (1073745000,29998840000); (1098763000,29998780000); (1124364000,29998720000); (1150562000,29998680000); (1177370000,29998600000); (1204803000,29998540000);
  (1232875000,29998460000); (1261601000,29998400000); (1290996000,29998320000); (1321076000,29998260000); (1351857000,29998160000); (1383356000,29998060000); (1415588000,29997980000);
  (1448571000,29997880000); (1482323000,29997800000); (1516861000,29997680000); (1552204000,29997580000); (1588370000,29997460000); (1625379000,29997340000); (1663251000,29997200000);
  (1702004000,29997100000); (1741661000,29996960000); (1782242000,29996820000); (1823768000,29996660000); (1866262000,29996480000); (1909746000,29996320000); (1954243000,29996160000);
  (1999777000,29995980000); (2046371000,29995800000); (2094052000,29995580000); (2142843000,29995380000); (2192771000,29995160000); (2243863000,29994940000); (2296145000,29994700000);
  (2349645000,29994440000); (2404392000,29994180000); (2460414000,29993920000); (2517742000,29993640000); (2576405000,29993320000); (2636436000,29993000000); (2697864000,29992680000);
  (2760725000,29992340000); (2825050000,29991960000); (2890873000,29991580000); (2958231000,29991200000); (3027157000,29990780000); (3097690000,29990360000); (3169866000,29989900000);
  (3243724000,29989400000); (3319303000,29988920000); (3396643000,29988400000); (3475784000,29987840000); (3556770000,29987260000); (3639643000,29986660000); (3724447000,29986060000);
  (3811226000,29985380000); (3900028000,29984680000); (3990899000,29983960000); (4083886000,29983220000); (4179041000,29982440000); (4276413000,29981600000); (4376053000,29980740000);
  (4478015000,29979840000); (4582353000,29978880000); (4689122000,29977880000); (4798378000,29976840000); (4910180000,29975760000); (5024588000,29974620000); (5141661000,29973400000);
  (5261462000,29972160000); (5384053000,29970860000); (5509500000,29969480000); (5637876000,29968040000); (5769238000,29966540000); (5903660000,29964960000); (6041216000,29963320000);
  (6181973000,29961580000); (6326015000,29959760000); (6473410000,29957860000); (6624243000,29955900000); (6778586000,29953800000); (6936529000,29951620000); (7098150000,29949360000);
  (7263533000,29946960000); (7432773000,29944460000); (7605958000,29941840000); (7783177000,29939120000); (7964525000,29936240000); (8150097000,29933240000); (8339996000,29930100000);
  (8534318000,29926820000); (8733166000,29923360000); (8936652000,29919760000); (9144874000,29915960000); (9357948000,29912000000); (9575989000,29907880000); (9799113000,29903540000);
  (10027430000,29899000000); (10261070000,29894240000); (10500150000,29889260000); (10744810000,29884060000); (10995160000,29878600000); (11251350000,29872880000); (11513500000,29866900000);
  (11781770000,29860640000); (12056280000,29854060000); (12337190000,29847220000); (12624650000,29840020000); (12918810000,29832500000); (13219810000,29824620000); (13527840000,29816380000);
  (13843030000,29807740000); (14165580000,29798700000); (14495630000,29789260000); (14833380000,29779340000); (15179000000,29768960000); (15532670000,29758120000); (15894580000,29746760000);
  (16264930000,29734860000); (16643900000,29722420000); (17031700000,29709380000); (17428540000,29695740000); (17834630000,29681460000); (18250170000,29666500000); (18675400000,29650860000);
  (19110540000,29634500000); (19555810000,29617340000); (20011460000,29599420000); (20477730000,29580640000); (20954860000,29560980000); (21443110000,29540420000); (21942740000,29518880000);
  (22454000000,29496380000); (22977180000,29472800000); (23512550000,29448140000); (24060390000,29422340000); (24621000000,29395340000); (25194670000,29367080000); (25781700000,29337540000);
  (26382420000,29306580000); (26997130000,29274240000); (27626160000,29240400000); (28269850000,29205000000); (28928540000,29167920000); (29602570000,29129200000); (30292310000,29088680000);
  (30998120000,29046280000); (31720380000,29001960000); (32459460000,28955580000); (33215770000,28907120000); (33989700000,28856420000); (34781660000,28803420000); (35592070000,28748020000);
  (36421360000,28690080000); (37269980000,28629520000); (38138370000,28566240000); (39027000000,28500080000); (39936330000,28430920000); (40866840000,28358680000); (41819040000,28283180000);
  (42793420000,28204320000); (43790510000,28121940000); (44810830000,28035880000); (45854920000,27945980000); (46923340000,27852140000); (48016650000,27754140000); (49135440000,27651820000);
  (50280300000,27545020000); (51451830000,27433540000); (52650670000,27317240000); (53877420000,27195860000); (55132780000,27069280000); (56417370000,26937240000); (57731880000,26799540000);
  (59077050000,26656000000); (60453550000,26506380000); (61862110000,26350440000); (63303480000,26187980000); (64778430000,26018760000); (66287810000,25842540000); (67832290000,25659060000);
  (69412820000,25468120000); (71030070000,25269460000); (72685110000,25062820000); (74378660000,24847940000); (76111710000,24624580000); (77885110000,24392520000); (79699800000,24151440000);
  (81556820000,23901160000); (83457130000,23641400000); (85401650000,23371940000); (87391500000,23092520000); (89427720000,22802940000); (91511410000,22502960000); (93643610000,22192380000);
  (95825490000,21871040000); (98058250000,21538740000); (100343000000,21195280000); (102681000000,20840600000); (105073500000,20474540000); (107521700000,20097020000); (110026900000,19707978000);
  (112590500000,19307400000); (115213900000,18895310000); (117898400000,18471750000); (120645400000,18036824000); (123456500000,17590682000); (126333000000,17133528000); (129276600000,16665624000);
  (132288700000,16187300000); (135371000000,15698944000); (138525200000,15201032000); (141752800000,14694116000); (145055700000,14178814000); (148435400000,13655844000); (151894000000,13126010000);
  (155433100000,12590230000); (159054700000,12049504000); (162760700000,11504940000); (166553000000,10957760000); (170433700000,10409280000); (174404800000,9860940000); (178468400000,9314286000);
  (182626800000,8770954000); (186882000000,8232710000); (191236300000,7701412000); (195692100000,7178992000); (200251700000,6667496000); (204917600000,6169026000); (209692200000,5685740000);
  (214578000000,5219844000); (219577700000,4773576000); (224693800000,4349154000); (229929200000,3948782000); (235286600000,3574602000); (240768700000,3228666000); (246378600000,2912902000);
  (252119300000,2629070000); (257993600000,2378722000); (264004900000,2163154000); (270156200000,1983372400); (276450800000,1840021400); (282892200000,1733363400); (289483500000,1663221800);
  (296228500000,1628936800); (303130600000,1629322000); (310193600000,1662651600); (317421100000,1726621800); (324817000000,1818337400); (332385200000,1934330800); (340129800000,2070558000);
  (348054800000,2222448000); (356164500000,2384952000); (364463100000,2552618000); (372955100000,2719706000); (381645000000,2880292000); (390537300000,3028428000); (399636800000,3158310000);
  (408948400000,3264468000); (418476900000,3341958000); (428227400000,3386588000); (438205100000,3395112000); (448415300000,3365440000); (458863300000,3296814000); (469554800000,3189942000);
  (480495500000,3047098000); (491691000000,2872150000); (503147400000,2670506000); (514870800000,2448982000); (526867100000,2215572000); (539143600000,1979113000); (551705500000,1748861200);
  (564559900000,1533998000); (577714400000,1343046600); (591175000000,1183297200); (604949400000,1060212400); (619044500000,976925000); (633468600000,933829800); (648228100000,928365000);
  (663331800000,955012200); (678787600000,1005564800); (694603400000,1069680600); (710787500000,1135709400); (727348900000,1191767000); (744296400000,1226950600); (761638500000,1232599600);
  (779384500000,1203445600); (797544000000,1138483800); (816126800000,1041385000); (835142900000,920341400); (854601200000,787246200); (874513900000,656225200); (894889700000,541648000);
  (915740700000,455861400); (937077500000,406996200); (958911400000,397262800); (981254200000,422140200); (1004117000000,470778200); (1027317000000,527272200); (1051053000000,575226800);
  (1075338000000,599770000); (1100184000000,591323200); (1125603000000,548184600); (1151610000000,477429000); (1178218000000,393615000); (1205441000000,315295000); (1233292000000,259986800);
  (1261787000000,238887000); (1290941000000,252968000); (1320768000000,291983800); (1351284000000,337205800); (1382505000000,367503600); (1414448000000,367009800); (1447129000000,331597200);
  (1480564000000,271295800); (1514773000000,206957800); (1549771000000,161749180); (1585579000000,150636920); (1622213000000,172711260); (1659695000000,210716800); (1698042000000,239171000);
  (1737275000000,237876600); (1777414000000,203794800); (1818481000000,153808720); (1860497000000,115229960); (1903484000000,108467040); (1947463000000,132642360); (1992459000000,164972240);
  (2019389000000,175669700); (2046682000000,174913380); (2074344000000,162034480); (2102379000000,139941040); (2130794000000,114374560); (2159593000000,92234120); (2188781000000,79421720);
  (2218363000000,78876540); (2248346000000,89482340); (2278733000000,106308760); (2309531000000,122223260); (2340746000000,130408080); (2372382000000,126917780); (2404446000000,112293680);
  (2436943000000,91507700); (2469880000000,72107960); (2503262000000,61174540); (2537094000000,62282200); (2571385000000,73805300); (2606138000000,89451800); (2641361000000,100982000);
  (2677061000000,102020340); (2713242000000,91204720); (2749913000000,73040800); (2787080000000,55819240); (2824749000000,47424920); (2862926000000,51108240); (2901620000000,63550100);
  (2940837000000,76518800); (2980584000000,81471720); (3009166000000,77745420); (3038022000000,68776280); (3067155000000,57158340); (3096567000000,46384840); (3126261000000,39702960);
  (3156240000000,38999860); (3186507000000,44110380); (3217064000000,52819240); (3247913000000,61602160); (3279059000000,66881200); (3310503000000,66357900); (3342249000000,59919600);
  (3374299000000,49740440); (3406657000000,39484360); (3439324000000,32873900); (3472305000000,32171380); (3505603000000,37202120); (3539219000000,45369560); (3573158000000,52719160);
  (3607423000000,55647240); (3642016000000,52526700); (3676941000000,44499380); (3712200000000,35012240); (3747798000000,28238620); (3783737000000,27078620); (3820021000000,31698180);
  (3856653000000,39374560); (3893636000000,45809760); (3930973000000,47320820); (3968669000000,42800840); (3998188000000,36395260); (4027927000000,29584540); (4057888000000,24512400);
  (4088071000000,22733500); (4118478000000,24655980); (4149112000000,29374000); (4179974000000,34970360); (4211065000000,39201080); (4242387000000,40325440); (4273942000000,37773820);
  (4305733000000,32389280); (4337759000000,26127100); (4370024000000,21304460); (4402529000000,19679114); (4435275000000,21723160); (4468265000000,26401840); (4501501000000,31574500);
  (4534983000000,34878800); (4568715000000,34740900); (4602698000000,31076880); (4636933000000,25359220); (4671423000000,19987766); (4706170000000,17217104); (4741175000000,18114944);
  (4776440000000,22041100); (4811968000000,26919960); (4847760000000,30213660); (4883818000000,30153600); (4920145000000,26631500); (4956741000000,21285120); (4986865000000,17361454);
  (5017172000000,15235832); (5047664000000,15562402); (5078340000000,18118736); (5109203000000,21871500); (5140254000000,25342540); (5171493000000,27150820); (5202922000000,26533460);
  (5234543000000,23646340); (5266356000000,19519090); (5298359000000,15668424); (5330562000000,13508660); (5362958000000,13786266); (5395549000000,16268718); (5428338000000,19824326);
  (5461332000000,22876120); (5494520000000,24054480); (5527912000000,22780060); (5561508000000,19524260); (5595309000000,15621682); (5629314000000,12698758); (5663523000000,11956624);
  (5697942000000,13625068); (5732571000000,16841850); (5767409000000,20030220); (5802462000000,21619140); (5837725000000,20780840); (5873202000000,17835886); (5908900000000,14117364);
  (5944807000000,11339092); (5975354000000,10683612); (6006058000000,11784700); (6036919000000,14168504); (6067938000000,16889024); (6099119000000,18873350); (6130457000000,19322702);
  (6161957000000,18018886); (6193620000000,15415790); (6225446000000,12472928); (6257433000000,10287638); (6289589000000,9663830); (6321907000000,10787482); (6354393000000,13142898);
  (6387041000000,15712090); (6419861000000,17385096); (6452845000000,17418112); (6486006000000,15749646); (6519330000000,13035800); (6552832000000,10380222); (6586502000000,8865150);
  (6620345000000,9080606); (6654366000000,10858996); (6688554000000,13339844); (6722921000000,15346566); (6757465000000,15915104); (6792194000000,14737544); (6827089000000,12313098);
  (6862169000000,9725874); (6897431000000,8141920); (6932872000000,8255416); (6963733000000,9657076); (6994726000000,11700642); (7025859000000,13588996); (7057135000000,14579974);
  (7088546000000,14267114); (7120099000000,12738456); (7151788000000,10548572); (7183624000000,8509550); (7215596000000,7376952); (7247715000000,7551678); (7279975000000,8916746);
  (7312377000000,10878384); (7344926000000,12600692); (7377615000000,13343984); (7410457000000,12770132); (7443441000000,11087756); (7476571000000,8971126); (7509848000000,7280956);
  (7543276000000,6699936); (7576852000000,7437228); (7610574000000,9132024); (7644453000000,11004124); (7678479000000,12192358); (7712652000000,12136064); (7746982000000,10829674);
  (7781464000000,8831744); (7816103000000,7017098); (7850889000000,6178728); (7885837000000,6659566); (7920937000000,8187294); (7952034000000,9798990); (7983257000000,11001300);
  (8014600000000,11317112); (8046064000000,10605028); (8077654000000,9116960); (8109369000000,7405124); (8141205000000,6110808); (8173167000000,5714382); (8205259000000,6344194);
  (8237473000000,7721678); (8269811000000,9268362); (8302281000000,10335646); (8334877000000,10467304); (8367604000000,9588142); (8400451000000,8038866); (8433434000000,6439104);
  (8466543000000,5431060); (8499783000000,5409180); (8533154000000,6350244); (8566656000000,7819214); (8600290000000,9152792); (8634059000000,9745560); (8667954000000,9315660);
  (8701985000000,8032570); (8736153000000,6446308); (8770451000000,5244850); (8804886000000,4944914); (8839452000000,5655022); (8874159000000,7021356); (8908997000000,8386120);
  (8940288000000,9061276); (8971684000000,8931924); (9003195000000,8032030); (9034811000000,6690640); (9066542000000,5407736); (9098388000000,4661706); (9130339000000,4722144);
  (9162406000000,5541864); (9194582000000,6772832); (9226874000000,7902390); (9259281000000,8457888); (9291798000000,8198368); (9324430000000,7214880); (9357178000000,5896228);
  (9390041000000,4771068); (9423019000000,4289326); (9456112000000,4633008); (9489326000000,5636850); (9522650000000,6855056); (9556094000000,7748954); (9589654000000,7917682);
  (9623334000000,7272924); (9657130000000,6080292); (9691046000000,4846120); (9725082000000,4096106); (9759239000000,4141854); (9793512000000,4939564); (9827905000000,6106682);
  (9862423000000,7092592); (9897062000000,7428692); (9928505000000,7023186); (9960048000000,6085540); (9991690000000,4964976); (10023430000000,4082560); (10055280000000,3767984);
  (10087220000000,4129656); (10119270000000,5010020); (10151420000000,6045622); (10183670000000,6810136); (10216020000000,6984740); (10248480000000,6487604); (10281040000000,5509132);
  (10313700000000,4436504); (10346470000000,3696314); (10379340000000,3578590); (10412320000000,4115132); (10445400000000,5064146); (10478580000000,6009890); (10511870000000,6537462);
  (10545270000000,6409742); (10578770000000,5670602); (10612380000000,4628284); (10646090000000,3723740); (10679920000000,3338988); (10713850000000,3628626); (10747880000000,4449432);
  (10782030000000,5421496); (10816290000000,6096188); (10850650000000,6157572)]%Z.

Definition response_abscissae : list R := map (fun p => IZR (fst p) / IZR 100000000000)%R response_table.
Definition response_values : list R := map (fun p => IZR (snd p) / IZR 100000000000)%R response_table.
(** The installed package has this file (psd.py L40). *)
Definition packaged_response (w : psd_env) : Prop := r_file w = Some (map Fin response_abscissae, map Fin response_values).
