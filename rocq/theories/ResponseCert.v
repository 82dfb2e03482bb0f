(** ResponseCert.v -- approximate halves of the second derivatives of the spline through the table of ResponseData.v, times 10^9.  Generated by
    tools/response.py; what they are used for is checked in ResponseFacts.v. *)
From Coq Require Import ZArith List.
Import ListNotations.

Definition response_cert : list Z := [
  0; 0; 0; 0; 0; 0; 0; 0; 0; 0; 0; 0;
  0; 0; 0; 0; 0; 0; 0; 0; 0; 0; 0; 0;
  0; 0; 0; 0; 0; 0; 0; 0; 0; 0; 0; 0;
  0; 0; 0; 0; 0; 0; 0; 0; 0; 0; 0; 0;
  0; 0; 0; 0; 0; 0; 0; 0; 0; 0; 0; 0;
  0; 0; 0; 0; 0; 0; 0; 0; 0; 0; 0; 0;
  0; 0; 0; 0; 0; 0; 0; 0; 0; 0; 0; 0;
  0; 0; 0; 0; 0; 0; 0; 0; 0; 0; 0; 0;
  0; 0; 0; 0; 0; 0; 0; 0; 0; 0; 0; 0;
  0; 0; 0; 0; 0; 0; 0; 0; 0; 0; 0; 0;
  0; 0; 0; 0; 0; 0; 0; 0; 0; 0; 0; 0;
  0; 0; 0; 0; 0; 0; 0; 0; 0; 0; 0; 0;
  0; 0; 0; 0; 0; 0; 0; 0; 0; 0; 0; 0;
  0; 0; 0; 0; 0; 0; 0; 0; 0; 0; 0; 0;
  0; 0; 0; 0; (-1); 4; (-14); 50; (-185); 682; (-2516); 9281;
  (-34243); 126345; (-466161); 1719933; (-6345988); 23413773; (-86387897); 318739376; (-1176008158); 4338992087; (-16009408291); 59067792659;
  (-217934110687); 804099483947; (-2966813717180); 10946276941812; (-40387365126008); 149013192281158; (-549800695129918); 1404163173669001; (-2108377430768517); 1644997572351968; (-733469953523130); 478584811574316;
  (-256319995436826); (-363904579902749); 849713381327719; (-567952536305500); (-218695036566793); 535483030075322; (-264333625315536); (-6101532018664); 180821665479103; (-313393510901998); 303403984398118; (-195719852692178);
  139625445572864; (-185569543739893); 214510674442568; (-183964594155199); 82349578891654; 68220572625216; (-144857335167135); 110920750337053; (-58010776189771); 27366029170396; 186462306685; (-24983378515852);
  17790616158704; 1245770904357; 1527407342067; (-2457872332751); (-2444114115035); 3070682780503; (-4797523269079); 4770917376528; (-3633228609590); 3509533662338; (-1557029593466); 4513204387249;
  (-5757173078278); (-298398594134); 4366169854250; (-2673903116654); 45974317925; (-84234516427); 2046771163057; (-3841177608539); 3673767341690; (-2582381804852); 1708909536875; (-508731079161);
  (-903417761257); 1564419651565; (-1502886578791); 699249794200; 333670218101; (-561146101728); 190121814918; (-46071832161); 143465449672; (-119527040086); 137926624675; (-247069561606);
  260283106436; (-116552641142); (-63122181704); 111847727313; (-86609738877); 94416328014; (-155176858690); 227352970611; (-222119840358); 153661429606; (-57348569336); (-30267963293);
  42731277679; (-9422550207); (-4496511131); (-1969890052); 12828914482; (-21781364593); 23154415741; (-20983858670); 14350560186; (-13253619570); 17899012114; (-16830666640);
  10804258929; (-7157390774); 706487646; 4975741719; (-3713101397); (-5020127209); 9646025964; (-4555521908); (-4336578480); 9551406863; (-8551245729); 1700482410;
  2399582695; 96596841; (-2258884010); (-301607570); 4040129098; (-6327984444); 4767012455; (-3950838426); 3883184401; (-3546330500); 3770329966; (-4194655399);
  680529202; 2113241305; (-2574596768); 3114720636; (-3920163006); 2867178154; (-2032146522); 1181031308; (-2071810334); 3440729311; (-2940754234); 1081334608;
  (-808068795); (-773507056); 1145354143; 65132883; (-812090908); 793383054; (-1764783983); 1479236531; (-959172459); 501424317; (-456079804); (-319131448);
  197468697; 137561287; (-158159885); (-781363911); 325861597; 96178201; (-106737791); (-623563657); 244138199; 256679461; (-667648226); 422075212;
  (-426132980); (-467458129); 654700034; (-469895630); (-226868065); 20429490; (-176747370); 395667727; (-808740649); 181153514; (-83837890); 20420797;
  (-111038754); (-334526462); 107929059; (-113023940); (-234461263); (-37874120); (-85139098); (-46184499); (-112530082); (-308079072); 158449285; (-149348538);
  (-185506593); (-68189154); (-54755467); (-177640657); 7889913; (-224850688); (-54856150); (-132925729); 59581088; (-312507163); (-11105364); (-23724723);
  (-231083509); (-21565735); (-150056124); (-2928149); (-214049283); (-32132466); (-124757837); (-57995426); (-179964133); (-17725373); (-183670147); (-60471783);
  (-53524806); (-156370764); (-76282269); (-115216988); (-97199868); (-76004917); (-124537848); (-98878226); (-93540287); (-87558991); (-147583058); (-25081470);
  (-161835963); (-63477145); (-118459969); (-82549069); (-114162854); (-97382740); (-75011245); (-130900966); (-92210305); (-82185701); (-108304454); (-103964777);
  (-84702046); (-112868566); (-89584476); (-99367310); (-105406128); (-90140407); (-89949410); (-119478695); (-73831271); (-111429143); (-97581872); (-88465602);
  (-110796689); (-77251850); (-112587148); (-88035176); (-97201928); (-94955365); (-100920156); (-83336649); (-113194572); (-78737283); (-101199511); (-88947002);
  (-107852337); (-77816336); (-99598761); (-96076502); (-86366899); (-100446208); (-82905000); (-97817095); (-88631357); (-89087670); (-93373717); (-88694228);
  (-86848570); (-90699257); (-90274503); (-83661591); (-89969202); (-83959391); (-86062762); (-85171814); (-86476167); (-79814222); (-84776045); (-82161801);
  (-80247280); (-82057998); (-76226092); (-82035316); (-74037544); (-78069357); (-75728037); (-72973379); (-73176611); (-72642882); (-69926105); (-69468509);
  (-67226872); (-67886395); (-63516781); (-64069205); (-61229599); (-60852448); (-58484922); (-55679479); (-56491034); (-51697179); (-51497602); (-48694933);
  (-47239549); (-44313029); (-42598954); (-40379561); (-37316777); (-35014933); (-33680280); (-29278185); (-27758614); (-24731825); (-22112073); (-19001253);
  (-15858524); (-13220190); (-10163678); (-6711768); (-4041929); (-391117); 2519308; 5911424; 9395897; 12423086; 16066724; 18935356;
  22720257; 25699508; 29124170; 32259177; 35390120; 38482328; 41429338; 44288879; 47054465; 49528608; 52008974; 54178812;
  56212382; 58012292; 59484482; 60716539; 61772510; 62305223; 62718577; 62652360; 62239562; 61524117; 60378394; 58817569;
  56929139; 54618164; 51914585; 48877829; 45461556; 41749338; 37708126; 33444555; 28960684; 24305598; 19578905; 14790986;
  10058935; 5426133; 981376; (-3185869); (-7020595); (-10424295); (-13341856); (-15696325); (-17450969); (-18548379); (-18983963); (-18739191);
  (-17835053); (-16314741); (-14233767); (-11683258); (-8767501); (-5613083); (-2371603); 835852; 3795111; 6426513; 8551041; 10058436;
  10886628; 10981313; 10357992; 9067174; 7223103; 4973942; 2513795; 53105; (-2185600); (-3998986); (-5218473); (-5733860);
  (-5505280); (-4583803); (-3097494); (-1258549); 685370; 2440515; 3763005; 4444817; 4392814; 3627269; 2299467; 666693;
  (-934553); (-2197725); (-2868172); (-2816365); (-2075163); (-847348); 538927; 1705066; 2328632; 2235831; 1471391; 294136;
  (-892415); (-1672915); (-1770921); (-1166167); (-116857); 924977; 1504745; 1367391; 597066; (-404894); (-1109825); (-1141299);
  (-501117); 408390; 1009529; 918308; 204373; (-580344); (-820436); (-838358); (-608231); (-206945); 243175; 602194;
  757407; 661114; 349628; (-66908); (-439521); (-633875); (-580397); (-303562); 84480; 425020; 577707; 479761;
  177279; (-192131); (-458034); (-496956); (-293238); 48792; 353469; 462866; 321383; 11333; (-292163); (-405757);
  (-330016); (-160358); 59428; 253686; 358483; 338736; 202476; (-1197); (-198684); (-317612); (-314651); (-192049);
  1688; 189489; 296371; 279406; 147239; (-42963); (-208249); (-276225); (-217447); (-60206); 121324; 240640;
  240769; 122688; (-53417); (-197244); (-234787); (-146304); (-20648); 106274; 195001; 214224; 157965; 46932;
  (-78239); (-171497); (-198382); (-149226); (-43642); 76996; 164783; 184885; 129575; 22137; (-92152); (-164952);
  (-165229); (-93523); 18022; 119061; 163812; 132171; 39576; (-69440); (-142253); (-143646); (-73278); 31822;
  105820; 141420; 126277; 66064; (-17056); (-92419); (-132104); (-121356); (-64621); 15921; 88977; 125491;
  111508; 52828; (-26265); (-92736); (-119184); (-94426); (-29552); 47090; 101851; 110551; 69514; (-2285);
  (-71806); (-106710); (-90936); (-32208); 41016; 92281; 99428; 71547; 17892; (-41389); (-84220); (-94734);
  (-69013); (-17187); 40570; 81719; 90013; 62368; 10117; (-45564); (-81653); (-83394); (-50332); 3628;
  55041; 82109; 72958; 32063; (-22481); (-65934); (-78742); (-55362); (-6524); 44547; 74061; 67524;
  35194; (-9108); (-49583); (-70932); (-65257); (-34875); 8606; 48030; 68295; 61323; 30160; (-12682);
  (-49700); (-65934); (-54726); (-20909); 21278; 53972; 63252; 45316; 7905; (-32373); (-57965); (-57438);
  (-31221); 8771; 44177; 58879; 46051; 11984; (-22899); (-48516); (-55628); (-41447); (-11560); 22446;
  47419; 53525; 38510; 8380; (-24799); (-47561); (-50767); (-33244); (-2117); 29403; 48329; 46623;
  25166; (-6791); (-35395); (-48238); (-39766); (-13776); 18022; 41448; 45886; 29406; (-373); (-29469);
  (-43746); (-41480); (-23458); 3412; 28631; 42473; 39570; 21140; (-5492); (-29588); (-41519); (-36496);
  (-16607); 9898; 32062; 40686; 32163; 10228; (-15889); (-34911); (-38751); (-25790); (-1720); 22836;
  37043; 34641; 16761; (-8468); (-29585); (-36765); (-28496); (-9610); 12861; 30166; 35563; 26994;
  7892; (-14171); (-30394); (-34269); (-24296); (-4576); 16860; 31113; 32395; 20195; (-321); (-20524);
  (-31768); (-29374); (-14348); 6704; 24720; 31712; 24726; 7006; (-14450); (-26084); (-37752)]%Z.
