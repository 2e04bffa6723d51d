(** The numerical tables of ebsdtorch/crystallography/scattering_factors/, copied digit by digit as exact decimals. *)
From Coq Require Import QArith List.
Import ListNotations.

(** scattering_factors_WK.py:60-161 (the same as scattering_factors_Hybrid.py:76-177) *)
Definition wk_A_param : list (list Q) := [
  [0.00427; 0.00957; 0.00802; 0.00209];
  [0.01217; 0.02616; -0.00884; 0.01841];
  [0.00251; 0.03576; 0.00988; 0.02370];
  [0.01596; 0.02959; 0.04024; 0.01001];
  [0.03652; 0.01140; 0.05677; 0.01506];
  [0.04102; 0.04911; 0.05296; 0.00061];
  [0.04123; 0.05740; 0.06529; 0.00373];
  [0.03547; 0.03133; 0.10865; 0.01615];
  [0.03957; 0.07225; 0.09581; 0.00792];
  [0.02597; 0.02197; 0.13762; 0.05394];
  [0.03283; 0.08858; 0.11688; 0.02516];
  [0.03833; 0.17124; 0.03649; 0.04134];
  [0.04388; 0.17743; 0.05047; 0.03957];
  [0.03812; 0.17833; 0.06280; 0.05605];
  [0.04166; 0.17817; 0.09479; 0.04463];
  [0.04003; 0.18346; 0.12218; 0.03753];
  [0.04245; 0.17645; 0.15814; 0.03011];
  [0.05011; 0.16667; 0.17074; 0.04358];
  [0.04058; 0.17582; 0.20943; 0.02922];
  [0.04001; 0.17416; 0.20986; 0.05497];
  [0.09685; 0.14777; 0.20981; 0.04852];
  [0.06667; 0.17356; 0.22710; 0.05957];
  [0.05118; 0.16791; 0.26700; 0.06476];
  [0.03204; 0.18460; 0.30764; 0.05052];
  [0.03866; 0.17782; 0.31329; 0.06898];
  [0.05455; 0.16660; 0.33208; 0.06947];
  [0.05942; 0.17472; 0.34423; 0.06828];
  [0.06049; 0.16600; 0.37302; 0.07109];
  [0.08034; 0.15838; 0.40116; 0.05467];
  [0.02948; 0.19200; 0.42222; 0.07480];
  [0.16157; 0.32976; 0.18964; 0.06148];
  [0.16184; 0.35705; 0.17618; 0.07133];
  [0.06190; 0.18452; 0.41600; 0.12793];
  [0.15913; 0.41583; 0.13385; 0.10549];
  [0.16514; 0.41202; 0.12900; 0.13209];
  [0.15798; 0.41181; 0.14254; 0.14987];
  [0.16535; 0.44674; 0.24245; 0.03161];
  [0.16039; 0.44470; 0.24661; 0.05840];
  [0.16619; 0.44376; 0.25613; 0.06797];
  [0.16794; 0.44505; 0.27188; 0.07313];
  [0.16552; 0.45008; 0.30474; 0.06161];
  [0.17327; 0.44679; 0.32441; 0.06143];
  [0.16424; 0.45046; 0.33749; 0.07766];
  [0.18750; 0.44919; 0.36323; 0.05388];
  [0.16081; 0.45211; 0.40343; 0.06140];
  [0.16599; 0.43951; 0.41478; 0.08142];
  [0.16547; 0.44658; 0.45401; 0.05959];
  [0.17154; 0.43689; 0.46392; 0.07725];
  [0.15752; 0.44821; 0.48186; 0.08596];
  [0.15732; 0.44563; 0.48507; 0.10948];
  [0.16971; 0.42742; 0.48779; 0.13653];
  [0.14927; 0.43729; 0.49444; 0.16440];
  [0.18053; 0.44724; 0.48163; 0.15995];
  [0.13141; 0.43855; 0.50035; 0.22299];
  [0.31397; 0.55648; 0.39828; 0.04852];
  [0.32756; 0.53927; 0.39830; 0.07607];
  [0.30887; 0.53804; 0.42265; 0.09559];
  [0.28398; 0.53568; 0.46662; 0.10282];
  [0.35160; 0.56889; 0.42010; 0.07246];
  [0.33810; 0.58035; 0.44442; 0.07413];
  [0.35449; 0.59626; 0.43868; 0.07152];
  [0.35559; 0.60598; 0.45165; 0.07168];
  [0.38379; 0.64088; 0.41710; 0.06708];
  [0.40352; 0.64303; 0.40488; 0.08137];
  [0.36838; 0.64761; 0.47222; 0.06854];
  [0.38514; 0.68422; 0.44359; 0.06775];
  [0.37280; 0.67528; 0.47337; 0.08320];
  [0.39335; 0.70093; 0.46774; 0.06658];
  [0.40587; 0.71223; 0.46598; 0.06847];
  [0.39728; 0.73368; 0.47795; 0.06759];
  [0.40697; 0.73576; 0.47481; 0.08291];
  [0.40122; 0.78861; 0.44658; 0.08799];
  [0.41127; 0.76965; 0.46563; 0.10180];
  [0.39978; 0.77171; 0.48541; 0.11540];
  [0.39130; 0.80752; 0.48702; 0.11041];
  [0.40436; 0.80701; 0.48445; 0.12438];
  [0.38816; 0.80163; 0.51922; 0.13514];
  [0.39551; 0.80409; 0.53365; 0.13485];
  [0.40850; 0.83052; 0.53325; 0.11978];
  [0.40092; 0.85415; 0.53346; 0.12747];
  [0.41872; 0.88168; 0.54551; 0.09404];
  [0.43358; 0.88007; 0.52966; 0.12059];
  [0.40858; 0.87837; 0.56392; 0.13698];
  [0.41637; 0.85094; 0.57749; 0.16700];
  [0.38951; 0.83297; 0.60557; 0.20770];
  [0.41677; 0.88094; 0.55170; 0.21029];
  [0.50089; 1.00860; 0.51420; 0.05996];
  [0.47470; 0.99363; 0.54721; 0.09206];
  [0.47810; 0.98385; 0.54905; 0.12055];
  [0.47903; 0.97455; 0.55883; 0.14309];
  [0.48351; 0.98292; 0.58877; 0.12425];
  [0.48664; 0.98057; 0.61483; 0.12136];
  [0.46078; 0.97139; 0.66506; 0.13012];
  [0.49148; 0.98583; 0.67674; 0.09725];
  [0.50865; 0.98574; 0.68109; 0.09977];
  [0.46259; 0.97882; 0.73056; 0.12723];
  [0.46221; 0.95749; 0.76259; 0.14086];
  [0.48500; 0.95602; 0.77234; 0.13374]]%Q.

(** scattering_factors_WK.py:163-264 (the same as scattering_factors_Hybrid.py:179-280) *)
Definition wk_B_param : list (list Q) := [
  [4.17218; 16.05892; 26.78365; 69.45643];
  [1.83008; 7.20225; 16.13585; 18.75551];
  [0.02620; 2.00907; 10.80597; 130.49226];
  [0.38968; 1.99268; 46.86913; 108.84167];
  [0.50627; 3.68297; 27.90586; 74.98296];
  [0.41335; 10.98289; 34.80286; 177.19113];
  [0.29792; 7.84094; 22.58809; 72.59254];
  [0.17964; 2.60856; 11.79972; 38.02912];
  [0.16403; 3.96612; 12.43903; 40.05053];
  [0.09101; 0.41253; 5.02463; 17.52954];
  [0.06008; 2.07182; 7.64444; 146.00952];
  [0.07424; 2.87177; 18.06729; 97.00854];
  [0.09086; 2.53252; 30.43883; 98.26737];
  [0.05396; 1.86461; 22.54263; 72.43144];
  [0.05564; 1.62500; 24.45354; 64.38264];
  [0.05214; 1.40793; 23.35691; 53.59676];
  [0.04643; 1.15677; 19.34091; 52.88785];
  [0.07991; 1.01436; 15.67109; 39.60819];
  [0.03352; 0.82984; 14.13679; 200.97722];
  [0.02289; 0.71288; 11.18914; 135.02390];
  [0.12527; 1.34248; 12.43524; 131.71112];
  [0.05198; 0.86467; 10.59984; 103.56776];
  [0.03786; 0.57160; 8.30305; 91.78068];
  [0.00240; 0.44931; 7.92251; 86.64058];
  [0.01836; 0.41203; 6.73736; 76.30466];
  [0.03947; 0.43294; 6.26864; 71.29470];
  [0.03962; 0.43253; 6.05175; 68.72437];
  [0.03558; 0.39976; 5.36660; 62.46894];
  [0.05475; 0.45736; 5.38252; 60.43276];
  [0.00137; 0.26535; 4.48040; 54.26088];
  [0.10455; 2.18391; 9.04125; 75.16958];
  [0.09890; 2.06856; 9.89926; 68.13783];
  [0.01642; 0.32542; 3.51888; 44.50604];
  [0.07669; 1.89297; 11.31554; 46.32082];
  [0.08199; 1.76568; 9.87254; 38.10640];
  [0.06939; 1.53446; 8.98025; 33.04365];
  [0.07044; 1.59236; 17.53592; 215.26198];
  [0.06199; 1.41265; 14.33812; 152.80257];
  [0.06364; 1.34205; 13.66551; 125.72522];
  [0.06565; 1.25292; 13.09355; 109.50252];
  [0.05921; 1.15624; 13.24924; 98.69958];
  [0.06162; 1.11236; 12.76149; 90.92026];
  [0.05081; 0.99771; 11.28925; 84.28943];
  [0.05120; 1.08672; 12.23172; 85.27316];
  [0.04662; 0.85252; 10.51121; 74.53949];
  [0.04933; 0.79381; 9.30944; 41.17414];
  [0.04481; 0.75608; 9.34354; 67.91975];
  [0.04867; 0.71518; 8.40595; 64.24400];
  [0.03672; 0.64379; 7.83687; 73.37281];
  [0.03308; 0.60931; 7.04977; 64.83582];
  [0.04023; 0.58192; 6.29247; 55.57061];
  [0.02842; 0.50687; 5.60835; 48.28004];
  [0.03830; 0.58340; 6.47550; 47.08820];
  [0.02097; 0.41007; 4.52105; 37.18178];
  [0.07813; 1.45053; 15.05933; 199.48830];
  [0.08444; 1.40227; 13.12939; 160.56676];
  [0.07206; 1.19585; 11.55866; 127.31371];
  [0.05717; 0.98756; 9.95556; 117.31874];
  [0.08249; 1.43427; 12.37363; 150.55968];
  [0.07081; 1.31033; 11.44403; 144.17706];
  [0.07442; 1.38680; 11.54391; 143.72185];
  [0.07155; 1.34703; 11.00432; 140.09138];
  [0.07794; 1.55042; 11.89283; 142.79585];
  [0.08508; 1.60712; 11.45367; 116.64063];
  [0.06520; 1.32571; 10.16884; 134.69034];
  [0.06850; 1.43566; 10.57719; 131.88972];
  [0.06264; 1.26756; 9.46411; 107.50194];
  [0.06750; 1.35829; 9.76480; 127.40374];
  [0.06958; 1.38750; 9.41888; 122.10940];
  [0.06574; 1.31578; 9.13448; 120.98209];
  [0.06517; 1.29452; 8.67569; 100.34878];
  [0.06213; 1.30860; 9.18871; 91.20213];
  [0.06292; 1.23499; 8.42904; 77.59815];
  [0.05693; 1.15762; 7.83077; 67.14066];
  [0.05145; 1.11240; 8.33441; 65.71782];
  [0.05573; 1.11159; 8.00221; 57.35021];
  [0.04855; 0.99356; 7.38693; 51.75829];
  [0.04981; 0.97669; 7.38024; 44.52068];
  [0.05151; 1.00803; 8.03707; 45.01758];
  [0.04693; 0.98398; 7.83562; 46.51474];
  [0.05161; 1.02127; 9.18455; 64.88177];
  [0.05154; 1.03252; 8.49678; 58.79463];
  [0.04200; 0.90939; 7.71158; 57.79178];
  [0.04661; 0.87289; 6.84038; 51.36000];
  [0.04168; 0.73697; 5.86112; 43.78613];
  [0.04488; 0.83871; 6.44020; 43.51940];
  [0.05786; 1.20028; 13.85073; 172.15909];
  [0.05239; 1.03225; 11.49796; 143.12303];
  [0.05167; 0.98867; 10.52682; 112.18267];
  [0.04931; 0.95698; 9.61135; 95.44649];
  [0.04748; 0.93369; 9.89867; 102.06961];
  [0.04660; 0.89912; 9.69785; 100.23434];
  [0.04323; 0.78798; 8.71624; 92.30811];
  [0.04641; 0.85867; 9.51157; 111.02754];
  [0.04918; 0.87026; 9.41105; 104.98576];
  [0.03904; 0.72797; 8.00506; 86.41747];
  [0.03969; 0.68167; 7.29607; 75.72682];
  [0.04291; 0.69956; 7.38554; 77.18528]]%Q.

(** scattering_factors_LVD_TCB.py:60-163 (the same as scattering_factors_Hybrid.py:285-388) *)
Definition fit_LVD : list (list Q) := [
  [6.473848488352918e-3; -4.901925767802290e-1; 5.732841603908765e-1; -3.794033014839905e-1; 5.544264747740791e-1; 2.785198853791489; 2.776204283306448; 2.775385910506251; 2.767593028672588; 2.765118976429275];
  [3.057451160998355; -6.200447791273253e1; 6.400555370846145e1; -5.001325785427806; 1.517988287005264e-1; 1.089672487260788; 9.398387981431211e-1; 9.252890343862655e-1; 8.229474987086506e-1; 5.773931106754022e-1];
  [3.926222728861479; -4.548619626399980; 2.193353128786585; 6.994512650339657e-2; 2.098642248519376e-3; 8.142760135172804; 4.989410770078558; 4.144289992394109; 4.019223150656802e-1; 1.564790347198236e-1];
  [3.398249705570541; -1.908668860956967; 3.907021175392274e-2; -1.116310102107145e-2; 9.462044653575231e-3; 4.442701786224095; 3.324515425264230; 1.897728803482149e-1; 8.719186146446036e-2; 8.278090600413406e-2];
  [1.472792486393293; -4.019330421993871e-1; 3.059989569826894e-1; 1.961442171731680e-2; 9.771771060882025e-4; 3.749740482818191; 5.880665361396738e-1; 5.156396131030110e-1; 1.213775700806037e-1; 6.809824121603139e-2];
  [1.244660886213433e2; -2.203528570789638e2; 1.952353522804791e2; -9.810793612697997e1; 1.420230412136232e-2; 2.421208492560056; 2.305379437524258; 2.048519321065642; 1.933525529175474; 7.689768184783397e-2];
  [5.813271507025561e1; -1.475424090878127e2; 1.301430656496395e2; -3.961956740841543e1; 1.059577633314809e-2; 1.700448564134711; 1.559038526017404; 1.415768274731469; 1.278418182054558; 5.655877984748055e-2];
  [2.994740452423624e1; -7.761012662552783e1; 9.988177646231442e1; -5.121270055056731e1; 8.196189544460320e-3; 1.302839878800107; 1.157941052583095; 1.009885493380251; 9.433279714332660e-1; 4.331976113218256e-2];
  [9.489848945035248e-1; -3.013339230435549e1; 5.279650781273386e1; -2.270627037952724e1; 6.569976645314410e-3; 1.458829331986459; 6.887799931876800e-1; 6.542398693466957e-1; 6.148361308119943e-1; 3.428374194950112e-2];
  [5.827411922209074e-1; 3.706765618410549e-1; -5.467449673508092e-1; 4.140526824802081e-1; 5.199030808639931e-3; 1.281185731438772; 4.445208971704776e-1; 1.986508755104810e-1; 1.854772466562765e-1; 2.757383820338858e-2];
  [2.367006039467926e1; -2.185317861597425e1; 5.924994481089464e-1; -2.446522903102440e-2; 4.839502217065358e-3; 8.451487735146031; 8.040966004742982; 6.249960005263150e-1; 1.324503949472964e-1; 2.339943620498786e-2];
  [4.855010476871495; -2.662209064768437; 4.780012360851080e-1; -7.023070646920648e-2; 3.989058281040198e-3; 5.946392738424565; 4.171303125206979; 3.982698081503743e-1; 1.618861858374742e-1; 1.953450563631035e-2];
  [2.834095616075075; -4.280041333782610; 4.421916805483114; -3.457744718964006e-2; 3.523859414060799e-3; 6.662350239805332; 5.512947222240214e-1; 5.093289634459738e-1; 1.117848374253312e-1; 1.676023518052574e-2];
  [2.871891426116124; -2.061735011951735; 2.171140242044787; -6.630736330588019e-2; 3.010707096705137e-3; 5.084871036429896; 4.291781853051262e-1; 3.664854341921622e-1; 1.197106112969034e-1; 1.439945361283975e-2];
  [2.791518400231514; -4.365068378238221; 4.435584555166990; -8.096357733994739e-2; 2.679000179664404e-3; 3.900659618654661; 3.298259683771500e-1; 3.060899565058886e-1; 1.080832325459728e-1; 1.258944953311868e-2];
  [2.679714156101995; -4.742528222307552e-1; 5.148359489896877e-1; -9.583600249907225e-2; 2.488719638189352e-3; 3.068891211999711; 3.782167021858090e-1; 1.887218119025488e-1; 9.233705900314941e-2; 1.119208772411441e-2];
  [2.566248399800203; -3.388763508285917e-1; 1.145845587555150; -9.231093165470796e-1; 2.291680020410422e-3; 2.415949203656124; 4.214142393102160e-1; 1.095924049758303e-1; 9.909554582267530e-2; 9.996659489275210e-3];
  [2.459817464140685; -3.641981770769951e-1; 2.505844772224745e-1; -5.774370295443458e-2; 2.301438668285837e-3; 1.940046319888566; 3.992410678843988e-1; 1.174724062744122e-1; 5.678037260236218e-2; 9.155798329207080e-3];
  [5.811078786014548; -5.025370965394226e1; 4.886094120598425e1; 7.406285920483829e-2; 7.278027386262219e-4; 1.266914833990368e1; 3.956410396981665; 3.683850595771545; 1.074585175695628e-1; 6.655767893915011e-3];
  [2.117811615241595e1; -3.390438243174689e2; 3.227569585232967e2; 6.500776738969967e-2; 6.558743665785935e-4; 6.396086194317362; 3.740247138917495; 3.648884499226053; 9.450906345146735e-2; 5.985206198837586e-3];
  [1.260351865721486e1; -2.768753820537026e2; 2.688716039073428e2; 5.568241788974580e-2; 5.770712551453996e-4; 6.156256153638529; 3.088735542666793; 3.027276632985483; 8.188747483752157e-2; 5.382898320507976e-3];
  [8.575957752381299; -2.103315634653049e2; 2.060971726015414e2; 4.777739489772619e-2; 5.057164844803206e-4; 6.007806688755818; 2.602858567452130; 2.553523450511056; 7.114294840241539e-2; 4.856284393837261e-3];
  [6.527684332347890; -2.004305768291727e2; 1.980150538899940e2; 4.139115180640056e-2; 4.474550243298565e-4; 5.835524793524481; 2.232559523811276; 2.197860185942290; 6.239738768285473e-2; 4.403836490799580e-3];
  [3.028317848436913; -9.553939330814323e1; 9.617615623521981e1; 3.597773159579877e-2; 3.914928907184223e-4; 8.359115043146318; 1.802637902641032; 1.775094889570472; 5.481444121431137e-2; 3.998289689160348e-3];
  [4.374175506331227; -1.609255109187795e2; 1.602733080603223e2; 3.123038610491624e-2; 3.469660210209380e-4; 5.510317055049282; 1.687982164024339; 1.666140477777024; 4.833703903212770e-2; 3.647469600530682e-3];
  [3.798100908368596; -9.168935493816872e1; 9.144542521554298e1; 2.727543440276047e-2; 3.033798543837710e-4; 5.317126458994331; 1.497130948847481; 1.468092418044105; 4.272478501289549e-2; 3.327918552318741e-3];
  [3.330378744675443; -7.700175964729671e1; 7.707252217905169e1; 2.399046690405699e-2; 2.682566655239420e-4; 5.181359645795432; 1.329151222651394; 1.302849289632289; 3.806454868263710e-2; 3.050100079915708e-3];
  [2.969080787252864; -7.574770691290402e1; 7.603982876253073e1; 2.101621136929670e-2; 2.311517511351530e-4; 5.041809491093800; 1.182755079216293; 1.162165458466299; 3.374790878830353e-2; 2.786808620707405e-3];
  [1.752071452121456; -4.304105234921245e1; 4.407059155435739e1; 1.868761540881447e-2; 2.017273247916241e-4; 6.187504979861871; 1.002662636289766; 9.853843113530303e-1; 3.029847039161176e-2; 2.558555987488791e-3];
  [2.466371104994591; -6.146785413325375e1; 6.201769452374813e1; 1.641601739314162e-2; 1.724871175953809e-4; 4.910280784938159; 9.678985203229922e-1; 9.512838347753555e-1; 2.696009676675663e-2; 2.341096110462537e-3];
  [2.760102031084283; -3.444526142074679e1; 3.522622672440163e1; 1.320671969994199e-2; 1.259455609282457e-4; 6.101282245376627; 7.651433135534649e-1; 7.513286233828597e-1; 2.248796343172512e-2; 2.067373742787123e-3];
  [3.182416352600000; -5.245140378111667e1; 5.296908271622185e1; 1.140961685918648e-2; 9.509543581450579e-5; 5.017190408609147; 7.123957644377982e-1; 7.022801925281940e-1; 1.967472956940154e-2; 1.841466144940115e-3];
  [3.456429691196040; -3.331760444317212e1; 3.357121938553322e1; 9.790022956403421e-3; 6.534348622651725e-5; 4.013580160329452; 6.623557780506291e-1; 6.457719410560738e-1; 1.709193532310115e-2; 1.603016028394201e-3];
  [3.649050478019264; -4.368516622212386e1; 4.369202886011548e1; 8.449022841991444e-3; 3.786114741100382e-5; 3.250432671125934; 6.096662016502890e-1; 5.969713008021232e-1; 1.485545127403623e-2; 1.336255873565630e-3];
  [3.838463122242895; -5.227234710112339e1; 5.198612794956596e1; 7.339559893380448e-3; 1.646942079513399e-5; 2.611894705732323; 5.661950628747182e-1; 5.552793266998739e-1; 1.297464694324407e-2; 1.029865368558757e-3];
  [4.025410303108274; -4.630423320789298e1; 4.572136819041012e1; 6.353379596253157e-3; 1.334778452557430e-6; 2.136483814437400; 5.265911664541312e-1; 5.141367844645776e-1; 1.128072422420068e-2; 4.880898579409704e-4];
  [3.389753515953940; 2.143483486791724; 3.543226035109782e-1; 3.740093400856642e-3; 3.003425023422297e-7; 2.057448143681711e1; 1.910799452185164; 1.974105893966039e-1; 8.134594653439889e-3; 2.926857910569511e-4];
  [4.770925092998260; 1.475978501552834; 3.044513555441887e-1; 3.594749819167283e-3; 3.000855492282790e-7; 1.336688813304128e1; 1.337383795771967; 1.775323694377828e-1; 7.791050330018268e-3; 2.822551396485372e-4];
  [4.607210198752340; 1.428018510398403; 2.955810455777538e-1; 3.389978408528951e-3; 2.668629749690224e-7; 1.086869055571519e1; 1.311374558731241; 1.680228707847112e-1; 7.359645453504783e-3; 2.623432810213873e-4];
  [4.311754534068716; 1.493315780393395; 2.812360501288841e-1; 3.093377384557471e-3; 2.580244485125306e-7; 9.458965805174902; 1.330636228452456; 1.565068714444536e-1; 6.824105238117352e-3; 2.498188791107023e-4];
  [3.111790391134954; 2.202590609458031; 2.703307749100209e-1; 2.687991947510981e-3; 2.325494833477792e-7; 1.069031413430237e1; 1.653163561589331; 1.451151857189699e-1; 6.139563515828505e-3; 2.322402359376725e-4];
  [2.831059684320536; 2.348581374896745; 2.451058884296964e-1; 2.352821082185159e-3; 2.312708383438592e-7; 1.043571957589507e1; 1.604828686745972; 1.316969347746069e-1; 5.549779013833459e-3; 2.227474637648977e-4];
  [2.571798593233526; 2.456337419572030; 2.206584408813715e-1; 2.055314180124382e-3; 2.321329477936922e-7; 1.016431171313775e1; 1.534419192445505; 1.191386197541104e-1; 5.018532408829888e-3; 2.145903791208612e-4];
  [2.332300303539466; 2.535780254890496; 1.982080421360260e-1; 1.761201304600535e-3; 1.981294115460245e-7; 9.921674601599595; 1.455856688087881; 1.076821878733493e-1; 4.472435456549673e-3; 1.965747162324994e-4];
  [2.113525348594700; 2.586363161550138; 1.770639138636865e-1; 1.497370510030569e-3; 2.054814455556224e-7; 9.659137258597623; 1.371066569343296; 9.703530275846488e-2; 3.971285090887921e-3; 1.913551907377983e-4];
  [6.421597961826873e-1; 2.979148144263289; 1.681544260042708e-1; 1.337442138784078e-3; 1.914109682468616e-7; 5.974797502634061; 1.433594325412777; 9.098684011726770e-2; 3.624101371161622e-3; 1.806889144160450e-4];
  [1.553172166803896; 2.639303646999888; 1.420154869567882e-1; 1.008504600997609e-3; 1.946384299730244e-7; 8.156202357589566; 1.216008874818015; 7.900988649158734e-2; 2.965479013639490e-3; 1.745930959191462e-4];
  [6.153078519928602e1; -7.860167412015821e1; 2.155012926027705e1; 1.376850156641916e-1; 3.246449309465210e-4; 3.114681025332473; 2.760169833885745; 1.935513123247224; 7.224683472602932e-2; 1.170016296246845e-3];
  [4.222321779015246; -2.641213183532026e1; 2.728528527087469e1; 1.216179018841380e-1; 3.068835463715258e-4; 6.072655104032275; 1.645501789593879; 1.522570749395068; 6.565079146952256e-2; 1.120938514730356e-3];
  [5.142220746420537; -2.549454137625767e1; 2.574144875486019e1; 1.117782275921996e-1; 2.936473847377427e-4; 5.272726364744845; 1.531949592091483; 1.402575250400872; 6.116853872630869e-2; 1.075608153945223e-3];
  [6.241640318318837; -9.338687244195522e1; 9.263328758298843e1; 1.034126922212987e-1; 2.818484268943907e-4; 4.269841080826875; 1.394077461402502; 1.355668549104345; 5.726679496521998e-2; 1.033079542820674e-3];
  [7.377433018134030; -1.260251069316281e2; 1.241284050040956e2; 9.599783718185698e-2; 2.710722163988820e-4; 3.469177577838978; 1.297598108867366; 1.267710676460660; 5.377717501794231e-2; 9.930845770291768e-4];
  [9.644006662721232; -1.229244353501125e2; 1.186825648165673e2; 8.950259470255390e-2; 2.612761214904750e-4; 2.726455453665441; 1.237234258508660; 1.200620368722498; 5.066786822851999e-2; 9.554378833834973e-4];
  [1.554517496748606e1; -1.182410278567446e2; 1.080095249631970e2; 8.362593419922217e-2; 2.519918624290739e-4; 2.106373408654927; 1.208603761295122; 1.153952705672140; 4.781893912748243e-2; 9.198862575926131e-4];
  [4.287087391816923; 3.232506654229650; 6.740295335617063e-1; 6.189080833876976e-2; 2.356120529521900e-4; 2.265878707985415e1; 2.237973864700642; 3.689955686643163e-1; 4.022665752984844e-2; 8.837618908780351e-4];
  [6.244751873904615; 2.351722714163885; 4.742793732222520e-1; 6.381138742868499e-2; 2.346512805627924e-4; 1.514313541909856e1; 1.453790006048140; 3.208356463878018e-1; 4.043545320946998e-2; 8.540811312800327e-4];
  [6.097881795995097; 2.194951647366750; 5.481727919600226e-1; 6.166695732226626e-2; 2.268073558647142e-4; 1.242885443158548e1; 1.505359923520235; 3.337380397171243e-1; 3.877445534999988e-2; 8.240498840648670e-4];
  [5.795268796472405; 2.370226641078433; 4.713987569011149e-1; 5.743682605878668e-2; 2.189794892596593e-4; 1.428010550582560e1; 1.359690157191345; 3.020173496635141e-1; 3.664367981470077e-2; 7.954345265183711e-4];
  [5.604062553775258; 2.357962595618129; 4.760010985728824e-1; 5.441233743152471e-2; 2.114146022051498e-4; 1.395174902305747e1; 1.312397549174392; 2.949337011929565e-1; 3.486015424623241e-2; 7.682616826618097e-4];
  [5.429083919697703; 2.336873253608803; 4.833735541048819e-1; 5.146549645574790e-2; 2.037761328637611e-4; 1.365036494276600e1; 1.267598413903199; 2.886106815769299e-1; 3.312918074466093e-2; 7.423484838012663e-4];
  [5.267744450894446; 2.308558133263050; 4.932654790260128e-1; 4.863562797416966e-2; 1.963088423206752e-4; 1.336020968273946e1; 1.225858565869417; 2.829196321278669e-1; 3.147353971271379e-2; 7.176580250696152e-4];
  [5.126804285170776; 2.269255340083806; 5.042093004533025e-1; 4.569239924162220e-2; 1.886750504938862e-4; 1.315815010261290e1; 1.181295082433371; 2.771070382190629e-1; 2.979576045495446e-2; 6.940110991990983e-4];
  [4.979623597498092; 2.241830874556695; 5.129339614028937e-1; 4.298018484983344e-2; 1.813816924857876e-4; 1.283926630780338e1; 1.147054464204860; 2.703871609352437e-1; 2.824187149526020e-2; 6.714866031739924e-4];
  [5.078358300456114; 1.957440271816590; 5.928259832213751e-1; 4.195020341439256e-2; 1.752410915283168e-4; 1.051327254690473e1; 1.117649412815246; 2.843867418336752e-1; 2.726633276413471e-2; 6.503108607073037e-4];
  [4.711616366573001; 2.172619507865789; 5.397176013428657e-1; 3.797960045478111e-2; 1.669237635648417e-4; 1.231094159485391e1; 1.087437967674925; 2.598049655092755e-1; 2.532899238951897e-2; 6.292785669619112e-4];
  [4.590755044851466; 2.135723730365674; 5.513555600941525e-1; 3.560584067185138e-2; 1.598240168567898e-4; 1.206567406233699e1; 1.058117371158644; 2.539944389186618e-1; 2.395087396496492e-2; 6.094827484332881e-4];
  [4.484001106267108; 2.089043470785398; 5.659326183161046e-1; 3.327035902110630e-2; 1.524456102828921e-4; 1.187492506915706e1; 1.028284937087896; 2.489078079080760e-1; 2.258440655321478e-2; 5.903744451594245e-4];
  [4.376651407869632; 2.046451503836341; 5.806628605915877e-1; 3.123885283277667e-2; 1.453748696625357e-4; 1.166530807171395e1; 1.003147696754953; 2.441532926863124e-1; 2.136185800007310e-2; 5.721103384547666e-4];
  [4.283083182474195; 1.995380014537307; 5.970535713325043e-1; 2.909516688695599e-2; 1.380647690375216e-4; 1.149619059566834e1; 9.770391020188206e-1; 2.394291329758291e-1; 2.009122333272558e-2; 5.543771384922663e-4];
  [4.195638407371233; 1.943332859786456; 6.124466172854658e-1; 2.715152076949324e-2; 1.305947873519297e-4; 1.141077504566523e1; 9.490119244548774e-1; 2.349503265353047e-1; 1.890515762809755e-2; 5.372336492097111e-4];
  [4.356925932963843; 1.695892047773159; 6.639045200684705e-1; 2.630200187602814e-2; 1.254973184998238e-4; 9.294345147185689; 9.105000459574200e-1; 2.387465959113764e-1; 1.820985425464623e-2; 5.215593719635622e-4];
  [4.331384056649235; 1.527648647286807; 7.357959228912380e-1; 2.495263232014026e-2; 1.187408525810578e-4; 7.876844338102884; 9.425156426277488e-1; 2.416994800398060e-1; 1.728998944485090e-2; 5.058346313135256e-4];
  [4.197260013196420; 1.468548067747088; 7.839312482110882e-1; 2.324940948643951e-2; 1.112613586072860e-4; 6.936740248944572; 1.017252766183483; 2.389489397150706e-1; 1.623324330753810e-2; 4.902390040211490e-4];
  [3.976297158190774; 1.522926842573418; 7.977062463905613e-1; 2.136667415586852e-2; 1.030786893857173e-4; 6.296857792287749; 1.112899511576911; 2.310570406784734e-1; 1.510135455672045e-2; 4.746824771050258e-4];
  [3.751443814398119; 1.627688029776327; 7.817567554542718e-1; 1.951708039122916e-2; 9.431998042934275e-5; 5.797546360829538; 1.182236310777107; 2.199135860247702e-1; 1.398104554814566e-2; 4.591271258298386e-4];
  [3.484015173387116; 1.793779204169655; 7.448783566919203e-1; 1.754277851624345e-2; 8.448723515688600e-5; 5.439988460809537; 1.227921341401281; 2.062088569929092e-1; 1.278994017211460e-2; 4.430322267874786e-4];
  [1.599565781988442; 2.975344521941205; 6.950926783668822e-1; 1.487796274586880e-2; 6.905495791015833e-5; 5.792444473855675; 1.553009829732260; 1.886263359366482e-1; 1.117634706624533e-2; 4.227723616555514e-4];
  [2.040215639757283; 2.899226346248255; 6.363440838157977e-1; 1.320719195954083e-2; 5.673821925001312e-5; 6.658194296096275; 1.413379237789324; 1.740001045021790e-1; 1.006878045302105e-2; 4.030771056922231e-4];
  [1.675934670648708; 3.004866029697293; 5.953400131616355e-1; 1.171631866230948e-2; 4.296782976398171e-5; 5.522310932114025; 1.380072230071963; 1.622292376559454e-1; 9.018148904165756e-3; 3.792776674776671e-4];
  [2.235228504431053; 2.682766386519949; 5.551949262124333e-1; 1.072733543662587e-2; 3.284739920462629e-5; 5.020309889602403; 1.230775905837777; 1.522481229928636e-1; 8.283991169062104e-3; 3.562419389317589e-4];
  [2.803427374125100; 2.718827879660200; 5.224759153919996e-1; 9.845378369710420e-3; 2.345245265083162e-5; 6.558768728045342; 1.169724225166679; 1.435566918001781e-1; 7.619765262300398e-3; 3.296276739029854e-4];
  [3.608610209977714; 2.450567747371983; 4.786395001072570e-1; 8.872142351692152e-3; 1.040019329094673e-5; 6.581625946219628; 1.027728526605885; 1.335336806347209e-1; 6.848612389484298e-3; 2.763888754566660e-4];
  [4.242099010573159; 2.099943420558279; 4.328366313799229e-1; 8.020215703810592e-3; 7.217850308513403e-7; 5.752801155360800; 8.739014891954615e-1; 1.235999561805247e-1; 6.176003330585702e-3; 1.414951776172309e-4];
  [4.636200956689623; 1.780633114269871; 4.037304439527385e-1; 7.685395546686740e-3; 8.954159028076436e-8; 4.888252997809829; 7.563105268800747e-1; 1.173023644522492e-1; 5.930343942428942e-3; 7.666686638730287e-5];
  [4.965922505950705; 1.438155615070337; 3.712992005792981e-1; 7.472564284502011e-3; 1.141152841525851e-7; 4.091293787874963; 6.292289966025513e-1; 1.110966786955352e-1; 5.772350103477618e-3; 8.085118938793825e-5];
  [5.306156144750332; 1.117331602360721; 3.158587231108543e-1; 7.203422423102100e-3; 1.073553305458635e-7; 3.488007354816557; 4.811907411497712e-1; 1.018744679457531e-1; 5.592453744170787e-3; 7.795066735407367e-5];
  [4.520533990423360; 4.106953979091246; 7.139468785037285e-1; 1.692940276874539e-2; 8.574921291917244e-5; 1.944822342329488e1; 1.898246731559969; 1.695535635953418e-1; 1.148195675489342e-2; 3.461220382579827e-4];
  [6.524010720018733; 3.207870807456613; 5.404787743496377e-1; 8.782788068988532e-3; 6.910106029491315e-6; 1.400925542989749e1; 1.326350359616653; 1.314085683860361e-1; 6.286474345204096e-3; 2.278399814589510e-4];
  [6.896028535596191; 2.835141545365232; 5.035068818888151e-1; 8.022945109667069e-3; 9.204009547587397e-8; 1.107638256703987e1; 1.171326162905030; 1.234946513917999e-1; 5.735155957904971e-3; 7.197075418025232e-5];
  [7.093749001626302; 2.529123739031940; 4.821078198888890e-1; 7.719366741451110e-3; 7.271141994250414e-8; 9.094737951659447; 1.063916670331612; 1.186194466218779e-1; 5.539457088950347e-3; 6.584947305284627e-5];
  [6.434013247972842; 2.970999705357888; 4.607966517878480e-1; 7.240331257754553e-3; 6.362366643091279e-8; 1.025968513072979e1; 1.131774523061633; 1.127759353623823e-1; 5.274595833531321e-3; 6.192638240887597e-5];
  [6.210708267840199; 3.039344538256235; 4.373399844391628e-1; 6.807147641473166e-3; 6.182293277428513e-8; 1.002141058591628e1; 1.103998801558834; 1.072189731624539e-1; 5.024321308506824e-3; 6.005069941971958e-5];
  [6.004315983089865; 3.094316545314180; 4.128084877164170e-1; 6.408916578800669e-3; 6.730073762160754e-8; 9.817930467191061; 1.069787050680294; 1.016352914486458e-1; 4.795248468887250e-3; 6.028065987264629e-5];
  [5.200617168103042; 3.498494403671440; 4.054149311313203e-1; 6.223437008265299e-3; 6.008593295434409e-8; 1.120383101944067e1; 1.128463695469282; 9.893334726861316e-2; 4.659174319779507e-3; 5.725906389623341e-5];
  [5.025338600360291; 3.518439882851541; 3.819503494462722e-1; 5.821102080962110e-3; 6.526093388297119e-8; 1.097721906976287e1; 1.084772148326308; 9.367468748538359e-2; 4.426823468734856e-3; 5.738568370505115e-5];
  [5.346561002606197; 3.224684665609108; 3.494617526254452e-1; 5.292517567488151e-3; 6.159176302362374e-8; 9.231183797524494; 9.728362291938352e-1; 8.705962209665623e-2; 4.130119644650323e-3; 5.494638944496757e-5];
  [5.225823503340047; 3.228188739952953; 3.270988788238514e-1; 4.888825755922390e-3; 5.212722694193633e-8; 9.071357066187183; 9.311242774566348e-1; 8.207206020598455e-2; 3.890296559934166e-3; 5.103679766366416e-5];
  [4.586412477535479; 3.518695956651012; 3.192617142012054e-1; 4.729796479856258e-3; 5.513244808062041e-8; 1.031861020923352e1; 9.572788378292328e-1; 7.968074314438807e-2; 3.771931999968489e-3; 5.097508603760111e-5];
  [4.457994806754126; 3.508672126376623; 3.013753805283154e-1; 4.407637462144819e-3; 4.887879032285916e-8; 1.008906933834013e1; 9.194464473616226e-1; 7.564191777863293e-2; 3.570264651248093e-3; 4.804951743958113e-5];
  [4.338975764011709; 3.491850988964034; 2.814710990162868e-1; 4.002092714990461e-3; 5.529298081955140e-8; 9.963309372238362; 8.780839569829744e-1; 7.116371157687776e-2; 3.321524042150777e-3; 4.851031794603728e-5];
  [4.227294704031012; 3.472492275106616; 2.648222294968986e-1; 3.690728778331929e-3; 6.258714262002473e-8; 9.724006020400314; 8.428737759602104e-1; 6.735347439748511e-2; 3.123646062633208e-3; 4.912170970176192e-5];
  [4.109517024430204; 3.457991325227507; 2.470873512223867e-1; 3.304239209409952e-3; 5.991049262319316e-8; 9.677359945101202; 8.069400424708172e-1; 6.328154369541671e-2; 2.875446396412092e-3; 4.706791536975981e-5]]%Q.

