(** * The tables behind the CPC estimates and bounds, as integers.

    A decimal literal of the source is the float64 nearest to it, given here as mantissa * 2^exponent. *)
From Coq Require Import ZArith List.
Import ListNotations.
Local Open Scope Z_scope.

(** icon_polynomial_coefficient.go:24-162 iconPolynomialCoefficents, one row of 20 for each lgK from 4 to 26, lowest degree first *)
Definition icon_coeffs : list (list (Z * Z)) := [
[(4456324428702309,(-52)); (2989936770376329,(-53)); (2238863174604727,(-54)); ((-4790604571940683),(-57)); ((-5378446009241535),(-54)); (1538605187071781,(-50)); ((-2648960649060401),(-49)); (25541796565529,(-41)); ((-5942654480640277),(-48)); (4066499521647861,(-47)); ((-8483195840129927),(-48)); (6789026633987215,(-48)); ((-8350751449806537),(-49)); (3931129496269963,(-49)); ((-5606173596267617),(-51)); (5938665887269425,(-53)); ((-4521381083783783),(-55)); (292008296881331,(-54)); ((-2931343690546623),(-61)); (6739966060498691,(-67))];
[(560006498731351,(-49)); (5992596996885527,(-54)); (2251891077573253,(-54)); ((-5952063630987243),(-57)); ((-1163773169955467),(-52)); (5485611279969487,(-52)); ((-1215720456694291),(-48)); (6120251449095959,(-49)); ((-2817353115404043),(-47)); (7777745233599179,(-48)); ((-4078502057394141),(-47)); (1637298284530985,(-46)); ((-4034593926957855),(-48)); (3800633477179359,(-49)); ((-5418647967028737),(-51)); (5735257325318617,(-53)); ((-136286589416355),(-50)); (2249921557727211,(-57)); ((-1409256805543943),(-60)); (1617227148796187,(-65))];
[(8983694837665927,(-53)); (1499765712993691,(-52)); (2256331094048397,(-54)); ((-3195087852219813),(-56)); ((-8777475648243793),(-55)); (5239007068635293,(-52)); ((-4703738220962295),(-50)); (5968969510079341,(-49)); ((-345289765046407),(-44)); (7651674425155133,(-48)); ((-4020626867880791),(-47)); (6463421715599347,(-48)); ((-7967060282201543),(-49)); (469056984694379,(-46)); ((-1337030547039537),(-49)); (5657416439693795,(-53)); ((-8597841457904663),(-56)); (2216021857414349,(-57)); ((-5547312698023819),(-62)); (99379404103817,(-61))];
[(8995456848348617,(-53)); (1500579897790489,(-52)); (4515766435769629,(-55)); ((-3276327179125587),(-56)); ((-4299590547459663),(-54)); (2580398943939323,(-51)); ((-2328188995505571),(-49)); (5926765597717953,(-49)); ((-5495540871189849),(-48)); (7619307094901791,(-48)); ((-8011361988236981),(-48)); (6440382567305433,(-48)); ((-1984479013615215),(-47)); (467219437739383,(-46)); ((-5325203060172633),(-51)); (703838515749559,(-50)); ((-2138293479999287),(-54)); (275427050263219,(-54)); ((-1378248212384465),(-60)); (3158893073958549,(-66))];
[(9001331969222491,(-53)); (6003262945331587,(-54)); (285228503989303,(-51)); ((-2340327862123847),(-55)); ((-3017873657760631),(-55)); (6773698637556483,(-54)); ((-3531283257549359),(-51)); (630942727851573,(-47)); ((-5133642026259797),(-49)); (961095810724067,(-46)); ((-2154693919579245),(-47)); (7304536542854527,(-49)); ((-4701567474109933),(-49)); (2294033789861403,(-49)); ((-1681948272707497),(-50)); (3639788385417183,(-53)); ((-5630027487147331),(-56)); (2941522564465671,(-58)); ((-7437062399836249),(-63)); (8586841237536435,(-68))];
[(562766644942367,(-49)); (750508164926399,(-51)); (4565297498446199,(-55)); ((-4720098809442885),(-56)); ((-737846174672813),(-53)); (3398447316148443,(-53)); ((-3613417020764243),(-51)); (5220529789788717,(-50)); ((-5340902457842819),(-49)); (8022961399603735,(-49)); ((-9005369417047797),(-49)); (3817794907425003,(-48)); ((-4914662814758563),(-49)); (1198804759681643,(-48)); ((-7030420299773919),(-52)); (475415842034559,(-50)); ((-735464525938687),(-53)); (3075067870181645,(-58)); ((-7778888322020651),(-63)); (4494128201798615,(-67))];
[(2251433202174669,(-51)); (6004455282243827,(-54)); (4567585106660069,(-55)); ((-4778143119481803),(-56)); ((-692902145574219),(-53)); (200913683401639,(-49)); ((-6965261425296447),(-52)); (5084507909244503,(-50)); ((-5234551843706803),(-49)); (3947931032127627,(-48)); ((-555511611075533),(-45)); (471993049877057,(-45)); ((-2434183811865923),(-48)); (4755778885182617,(-50)); ((-436204274058977),(-48)); (7557173666186177,(-54)); ((-5849211505075333),(-56)); (764676835299821,(-56)); ((-7741181016753527),(-63)); (2237116893615223,(-66))];
[(9006466087453163,(-53)); (3002323840022829,(-53)); (4568152912613519,(-55)); ((-1200207007767503),(-54)); ((-660727823617865),(-53)); (746780176427989,(-51)); ((-3229404736146367),(-51)); (4706554693570225,(-50)); ((-2418969736286295),(-48)); (3645351108726413,(-48)); ((-4100741642125305),(-48)); (6964109575805063,(-49)); ((-1121558447456787),(-47)); (8756741461838091,(-51)); ((-802160520286051),(-49)); (3468533377924185,(-53)); ((-5357872605192539),(-56)); (1397249143990681,(-57)); ((-3525346173455193),(-62)); (8121177446790015,(-68))];
[(9006832621783999,(-53)); (375297404979797,(-50)); (4566216754325931,(-55)); ((-4701394419716329),(-56)); ((-1595000526184929),(-54)); (7645888321055557,(-54)); ((-4039904031081869),(-51)); (2890114840046325,(-49)); ((-5855520421607995),(-49)); (4356692532993047,(-48)); ((-4849034054320699),(-48)); (1020362086464423,(-46)); ((-652657421912917),(-46)); (633428830316853,(-47)); ((-7396529132444169),(-52)); (7973102766355585,(-54)); ((-3074071426421461),(-55)); (6410067047879375,(-59)); ((-8090386009740489),(-63)); (4665799201950211,(-67))];
[(4503507964752749,(-52)); (6004805392176893,(-54)); (285366287318681,(-51)); ((-2343240395497379),(-55)); ((-815175043489915),(-53)); (979670108548427,(-51)); ((-4123664334096209),(-51)); (5881011518776663,(-50)); ((-92849305726557),(-43)); (2205862351890423,(-47)); ((-4901220795617087),(-48)); (8237632036721189,(-49)); ((-5261753845796599),(-49)); (637558401092131,(-47)); ((-1859137229453963),(-50)); (4004083318311683,(-53)); ((-1542342533605297),(-54)); (6426414132417925,(-59)); ((-8103886365788121),(-63)); (4669481020045507,(-67))];
[(9007107549798137,(-53)); (6004852188011971,(-54)); (4564791218583241,(-55)); ((-1164551812812301),(-54)); ((-3366271705410751),(-55)); (8089730530998961,(-54)); ((-528634665737135),(-48)); (1502514642232485,(-48)); ((-6061229251405095),(-49)); (8990700289826997,(-49)); ((-4991790896423223),(-48)); (2097287669425135,(-47)); ((-5359568416999379),(-49)); (5197422983478259,(-50)); ((-3791238655286487),(-51)); (2042920593460445,(-52)); ((-787667013700475),(-53)); (6571249003761281,(-59)); ((-8297245366147339),(-63)); (4787900031368037,(-67))];
[(4503576691685737,(-52)); (3002438483772875,(-53)); (4563600701801979,(-55)); ((-2310090816886265),(-55)); ((-880544621921467),(-53)); (4237609028003099,(-53)); ((-8773109690971679),(-52)); (773741070875249,(-47)); ((-776283810807863),(-46)); (4587207070768605,(-48)); ((-5077389265033715),(-48)); (4255442213542297,(-48)); ((-5425827157099565),(-49)); (5252460795352583,(-50)); ((-3825764393373541),(-51)); (4117910910547763,(-53)); ((-6343958760362477),(-56)); (3304714474218193,(-58)); ((-8338348723222503),(-63)); (4807858828747157,(-67))];
[(9007176326729371,(-53)); (6004885979985951,(-54)); (1140784180186441,(-53)); ((-2302844151975935),(-55)); ((-7155042539067201),(-56)); (4297686784139385,(-53)); ((-4426503521423203),(-51)); (1555656562856613,(-48)); ((-3112277450396671),(-48)); (4586735648714699,(-48)); ((-5066870476552337),(-48)); (4239615540141421,(-48)); ((-2698992415584621),(-48)); (2609484374824693,(-49)); ((-7594072592418707),(-52)); (2041302636128231,(-52)); ((-1570756277354071),(-54)); (3269585733480401,(-58)); ((-8241050855663867),(-63)); (4746622098493363,(-67))];
[(9007187796033221,(-53)); (1501222428975375,(-52)); (2281393178536939,(-54)); ((-4590820271431477),(-56)); ((-1783081553409),(-44)); (2202850727821443,(-52)); ((-4528305726523669),(-51)); (6355019084856869,(-50)); ((-6348371165684499),(-49)); (584045502706937,(-45)); ((-2578041046831941),(-47)); (2155202553377117,(-47)); ((-5483949638241389),(-49)); (1324679659270595,(-48)); ((-7706120441826217),(-52)); (4141138527226661,(-53)); ((-6371095227586745),(-56)); (6629294184482607,(-59)); ((-4176643248279479),(-62)); (2405389562207751,(-66))];
[(2251798381028755,(-51)); (6004893499185549,(-54)); (570309547019489,(-52)); ((-1144503885660141),(-54)); ((-3716008786089265),(-55)); (9000382637341479,(-54)); ((-2309210897676791),(-50)); (6473782698382971,(-50)); ((-6461132206735309),(-49)); (4751696141131997,(-48)); ((-5240345337387473),(-48)); (8757442175598835,(-49)); ((-2784449193065461),(-48)); (2689793748083523,(-49)); ((-122233709278801),(-46)); (4204029982407889,(-53)); ((-6468794837291415),(-56)); (6732716555930757,(-59)); ((-1060847030644445),(-60)); (2445005764185415,(-66))];
[(4503598188639755,(-52)); (6004869743094065,(-54)); (2282612968943733,(-54)); ((-2343583148628117),(-55)); ((-6357943893388485),(-56)); (7443317370284551,(-54)); ((-7769568209727835),(-52)); (5517829984259895,(-50)); ((-1390972312200719),(-47)); (1032007462815943,(-46)); ((-573293558969415),(-45)); (1927829168918287,(-47)); ((-153992764947873),(-44)); (4778400691155457,(-50)); ((-1741995181811567),(-50)); (7502582845497115,(-54)); ((-361080465107405),(-52)); (3006663932744825,(-58)); ((-7574620550974619),(-63)); (4358330309483183,(-67))];
[(9007197804615725,(-53)); (3002429048957511,(-53)); (2283253333640367,(-54)); ((-4733791952740889),(-56)); ((-1482711734887785),(-54)); (6864974656042745,(-54)); ((-7259728651301221),(-52)); (5206746724739813,(-50)); ((-1322553572457659),(-47)); (3949614599541289,(-48)); ((-4410802712598797),(-48)); (7447786893715965,(-49)); ((-597023652919963),(-46)); (2322510343631719,(-49)); ((-3395017526334855),(-51)); (915734592819841,(-51)); ((-1412708968889501),(-54)); (5890165645275507,(-59)); ((-7428564580887815),(-63)); (4278806154804313,(-67))];
[(70368738597433,(-46)); (6004892492912741,(-54)); (4562439986593577,(-55)); ((-2286297446746291),(-55)); ((-7510859983069975),(-56)); (2286528380282561,(-52)); ((-4700402728349505),(-51)); (3298235138481869,(-49)); ((-6590006544926105),(-49)); (2425053256776155,(-47)); ((-5352141277787009),(-48)); (4474534689700297,(-48)); ((-5693648435952183),(-49)); (5502957352092745,(-50)); ((-4003445099476513),(-51)); (2152810774192615,(-52)); ((-6629943798824413),(-56)); (3453085087724487,(-58)); ((-8713581392411763),(-63)); (2512975430047107,(-66))];
[(9007198900675817,(-53)); (6004890649155375,(-54)); (4562890219375201,(-55)); ((-4592593850219289),(-56)); ((-114035003397607),(-50)); (8815905600273877,(-54)); ((-2267465902758621),(-50)); (6368574502613365,(-50)); ((-3182558791958877),(-48)); (2343251869789653,(-47)); ((-2586647453284733),(-47)); (8651863854302693,(-49)); ((-1376248148672463),(-47)); (5320223906796081,(-50)); ((-7739091868863329),(-52)); (4159802197733329,(-53)); ((-1600340627739931),(-54)); (6662542824892931,(-59)); ((-1049699937002003),(-60)); (2418912496483321,(-66))];
[(9007199069808221,(-53)); (1501223793695473,(-52)); (570364677678003,(-52)); ((-4594415196970215),(-56)); ((-910447287061449),(-53)); (4400378361735763,(-53)); ((-141585313752113),(-46)); (3183453543744023,(-49)); ((-1591773701947811),(-47)); (2345157569589963,(-47)); ((-1294954800218659),(-46)); (4333148438201445,(-48)); ((-5516259005790213),(-49)); (5333031970241837,(-50)); ((-3880230200429147),(-51)); (8345536684848659,(-54)); ((-6423660017116819),(-56)); (209009525207613,(-54)); ((-8433483210259365),(-63)); (4860597978147919,(-67))];
[(9007199175000095,(-53)); (3002438251593615,(-53)); (4564648081833061,(-55)); ((-4662504116646333),(-56)); ((-6621618911847517),(-56)); (981600605465419,(-51)); ((-8178448125611057),(-52)); (5797792360468465,(-50)); ((-2919139183285523),(-48)); (8652330729210315,(-49)); ((-600159673328137),(-45)); (4032847302231627,(-48)); ((-5150960576769545),(-49)); (4992917859898589,(-50)); ((-7279973892418103),(-52)); (7839828684014897,(-54)); ((-1509925130241695),(-54)); (1572760494092591,(-57)); ((-495771488812435),(-59)); (4569890128697881,(-67))];
[(9007199226451307,(-53)); (6004882065937059,(-54)); (4564064940932791,(-55)); ((-4636303118382341),(-56)); ((-6899700627788205),(-56)); (2070684661267377,(-52)); ((-8608065176304983),(-52)); (6093208910748721,(-50)); ((-766210130542885),(-46)); (1134554517439067,(-46)); ((-5033257222943445),(-48)); (8451577674808531,(-49)); ((-5396180926901425),(-49)); (5230719154750665,(-50)); ((-3814441458120807),(-51)); (8220228202170387,(-54)); ((-3169084392363441),(-55)); (1652367717231679,(-57)); ((-8345715551544521),(-63)); (4816199779407003,(-67))];
[(1125899903543797,(-50)); (6004889507112513,(-54)); (1140714525526553,(-53)); ((-4591773152003505),(-56)); ((-3648855534365115),(-55)); (4401685220162231,(-53)); ((-4523878026833141),(-51)); (3173978954611739,(-49)); ((-3170187122187183),(-48)); (2332920936057979,(-47)); ((-5148276103756003),(-48)); (2151724546995817,(-47)); ((-1368660305222679),(-47)); (330584462327091,(-46)); ((-1923007909259371),(-50)); (8266695542752031,(-54)); ((-1589701778895727),(-54)); (3308112591778619,(-58)); ((-8336500991650219),(-63)); (4800953602574081,(-67))]].
(** confidence.go:26-40 iconHighSideData, in ten-thousandths, three for each lgK from 4 to 14 *)
Definition icon_high : list Z := [8031; 8559; 9309; 7084; 7959; 8660; 7141; 7514; 7876; 7458; 7430; 7572; 6892; 7141; 7497; 6889; 7132; 7290; 7075; 7118; 7185; 7040; 7047; 7085; 6993; 7019; 7053; 6953; 7001; 6983; 6944; 6966; 7004].
(** confidence.go:42-56 hipHighSideData *)
Definition hip_high : list Z := [5855; 6688; 7391; 5886; 6444; 6923; 5885; 6254; 6594; 5889; 6134; 6326; 5900; 6072; 6203; 5875; 6005; 6089; 5871; 5980; 6040; 5889; 5941; 6015; 5871; 5926; 5973; 5866; 5901; 5915; 5880; 5914; 5953].
