(** * Estimates and confidence bounds of theta and tuple sketches.

    theta/update_sketch.go, theta/compact_sketch.go, theta/wrapped_compact_sketch.go, the same methods of the tuple
    sketches, and internal/binomialbounds/binomialbounds.go.  float64 arithmetic is IEEE binary64 (FloatModel.v).
    math.Log and math.Pow are parameters.  [None] means that a loop has not finished within the fuel; a Go uint64
    is an [N] (the loop counters do not wrap). *)
From Coq Require Import ZArith NArith List.
From Flocq Require Import Core BinarySingleNaN.
From Verif Require Import Base BitPackModel HashtableModel FloatModel.
Import ListNotations.
Local Open Scope Z_scope.

(** binomialbounds.go:34-39 deltaOfNumStdDevs; an entry (m, e) is m * 2^e, the binary64 nearest to the decimal literal *)
Definition delta_tab : list (Z * Z) := [
  (1, -1); (357260018121515, -51); (409832283888991, -54);
  (12158031820939, -53)].

(** binomialbounds.go:41-163 lbEquivTable; an entry (m, e) is m * 2^e, the binary64 nearest to the decimal literal *)
Definition lb_tab : list (Z * Z) := [
  (1, 0); (2, 0); (3, 0);
  (13850979605381, -44); (110629084189145, -45); (119344482817991, -43);
  (33105460984491, -45); (46566388337639, -44); (221416215150355, -45);
  (17041397300919, -44); (86740622408447, -45); (87499185206527, -44);
  (34457312555691, -45); (83534317753137, -45); (2445863481197, -39);
  (4331159520789, -42); (81579581559929, -45); (146617634241513, -45);
  (34764282619117, -45); (80246945428709, -45); (70194679373729, -44);
  (34840232616217, -45); (19817774016107, -43); (68043844808849, -44);
  (34893843145479, -45); (78520296087395, -45); (132921243836633, -45);
  (8733389882865, -43); (77921386045823, -45); (65240962000689, -44);
  (8741020687913, -43); (19357575591569, -43); (128537669407679, -45);
  (34988225904341, -45); (9627352453003, -42); (126946557699653, -45);
  (35007770052277, -45); (9583495422501, -42); (125616768858393, -45);
  (17511947980113, -44); (38182235958289, -44); (124486172408809, -45);
  (35037414897619, -45); (76098774932343, -45); (123511162473843, -45);
  (8762225716549, -43); (75863778851017, -45); (122660190876543, -45);
  (35058778971953, -45); (75654104547305, -45); (121909840272629, -45);
  (35067355476219, -45); (75465592735613, -45); (30310585901653, -43);
  (1096089671347, -40); (75294971945383, -45); (60321981429387, -44);
  (4385188043661, -42); (75139630802217, -45); (60051949066649, -44);
  (1096481363669, -40); (74997456693931, -45); (59806767443647, -44);
  (35092681668619, -45); (74866720942417, -45); (119165912137303, -45);
  (35097430394501, -45); (74745993514589, -45); (14844417438107, -42);
  (35101724605769, -45); (74634080624375, -45); (118377117464197, -45);
  (4388203221077, -42); (37264988448881, -44); (118027327572503, -45);
  (35109184782123, -45); (9304103627587, -42); (117702675354011, -45);
  (35112444207323, -45); (37170953782155, -44); (117400368667041, -45);
  (35115439944903, -45); (74256585138399, -45); (29279506186047, -43);
  (8779550554075, -43); (74176318435183, -45); (29213399279337, -43);
  (17560378572885, -44); (37050317389037, -44); (116605316913189, -45);
  (35123126847673, -45); (74029120504597, -45); (116371646757573, -45);
  (35125330551497, -45); (36980705962209, -44); (3629726388767, -40);
  (35127384899577, -45); (73897188058001, -45); (115942931074593, -45);
  (35129304461803, -45); (4614760256135, -41); (115745668014363, -45);
  (35131101795941, -45); (36889043339791, -44); (28889633843519, -43);
  (35132788282997, -45); (73722729334273, -45); (57690357808241, -44);
  (35134373597619, -45); (73669889130105, -45); (57605739662121, -44);
  (35135866519747, -45); (18404845885857, -43); (115050173876263, -45);
  (17568637422269, -44); (73571047943873, -45); (57448106483895, -44);
  (8784651378009, -43); (36762366618821, -44); (114749068476633, -45);
  (35139864565405, -45); (73480304250739, -45); (1790754113477, -39);
  (17570528883401, -44); (73437638206755, -45); (57236682585561, -44);
  (35142189924599, -45); (4587288936569, -41); (114343981476603, -45);
  (1098227052655, -40); (73357156099199, -45); (114219754865351, -45);
  (35144289078109, -45); (73319143818507, -45); (28525089741893, -43);
  (35145263762697, -45); (18320625021169, -43); (113985495521639, -45);
  (8786548275751, -43); (73247145637445, -45); (113874890918875, -45);
  (35147080202831, -45); (36606503825527, -44); (28442073481927, -43);
  (35147927890423, -45); (36590009309249, -44); (113665473326529, -45);
  (35148738591961, -45); (18287029097895, -43); (56783107953733, -44);
  (35149514673425, -45); (18279310836837, -43); (113470324774699, -45);
  (35150258407499, -45); (9135918227219, -42); (1771525278059, -39);
  (17575485795195, -44); (36529187103155, -44); (28321981540977, -43);
  (17575828085757, -44); (73030282217549, -45); (28300273259327, -43);
  (17576156885263, -44); (73003026684387, -45); (113116972989843, -45);
  (35152945966025, -45); (72976567486957, -45); (56517715111905, -44);
  (35153554159789, -45); (36475433490587, -44); (112956338390499, -45);
  (68660429077, -36); (72925889965383, -45); (112879579587707, -45);
  (4394337973061, -42); (72901603459053, -45); (56402521768735, -44);
  (2197202973357, -41); (36438988364403, -44); (112732627060019, -45);
  (35155772174129, -45); (36427490317955, -44); (112662233386957, -45);
  (35156278510221, -45); (72832587958839, -45); (56296885972693, -44);
  (35156767554113, -45); (36405386512447, -44); (112527157536561, -45);
  (35157240212819, -45); (72789511747203, -45); (7028894381683, -41);
  (35157697182867, -45); (36384390642605, -44); (112399154387025, -45);
  (4394767408777, -42); (36374280076009, -44); (112337619470669, -45);
  (4394820907413, -42); (72728828056783, -45); (56138819167449, -44);
  (17579490849857, -44); (72709565834261, -45); (14027393501829, -42);
  (17579691622119, -44); (72690755287411, -45); (112162088711343, -45);
  (35159772496617, -45); (36336189610919, -44); (56053202098603, -44);
  (17580075031951, -44); (36327210665753, -44); (112052041030089, -45);
  (17580258187887, -44); (36318433079879, -44); (111998948652379, -45);
  (4395108992499, -42); (36309849538113, -44); (111947079262245, -45);
  (17580608632483, -44); (72602906055575, -45); (111896387471537, -45);
  (8790388174531, -43); (36293236949861, -44); (111846830064889, -45);
  (2197617423751, -41); (72570389938201, -45); (27949591522629, -43);
  (35162195767365, -45); (72554642270153, -45); (111750956608017, -45);
  (17581252042053, -44); (72539219337051, -45); (55852282321183, -44);
  (35162804128173, -45); (72524110287069, -45); (27914788716145, -43);
  (17581548067099, -44); (72509304724343, -45); (3487959178329, -40);
  (35163380486861, -45); (18123698181845, -43); (111571149139543, -45);
  (17581828726471, -44); (72480564823437, -45); (6970530661843, -41);
  (35163927319275, -45); (9058326490103, -42); (111486688979121, -45);
  (8791047588505, -43); (36226462673807, -44); (111445716388775, -45);
  (35164446771549, -45); (36219748422609, -44); (111405546239825, -45);
  (35164696914285, -45); (72426318470721, -45); (55683076574597, -44);
  (35164940919711, -45); (36206691325677, -44); (111327512744669, -45);
  (17582589517341, -44); (18100170512715, -43); (111289601765595, -45);
  (35165411458115, -45); (72388209775289, -45); (111252397898517, -45);
  (8791409610249, -43); (72375959012081, -45); (27803969933219, -43);
  (8791465023559, -43); (36181961715561, -44); (6948751680147, -41);
  (35166076657369, -45); (72352096879977, -45); (111144819688717, -45);
  (35166288267917, -45); (72340473323697, -45); (111110239254961, -45);
  (8791623786655, -43); (72329047154007, -45); (111076267533049, -45);
  (35166697373033, -45); (9039726612575, -42); (55521443578571, -44);
  (35166895151971, -45); (72306765270777, -45); (55505040694795, -44);
  (35167088632273, -45); (72295899234387, -45); (867014329875, -38);
  (35167277931193, -45); (72285209841319, -45); (27736532546983, -43);
  (35167463198203, -45); (72274692488795, -45); (110914954454847, -45);
  (17583822260171, -44); (72264342566971, -45); (110884292757601, -45);
  (35167822065651, -45); (72254155772639, -45); (55427065654253, -44);
  (4395999493841, -42); (18061031973395, -43); (27706114217797, -43);
  (17584083114551, -44); (36117127451719, -44); (110795256687419, -45);
  (35168333072533, -45); (72224532797973, -45); (55383259180707, -44);
  (35168496565057, -45); (72214957906119, -45); (13842278766499, -42);
  (17584328404035, -44); (36102763257541, -44); (110710380521225, -45);
  (35168813909181, -45); (36098117591021, -44); (110682958421831, -45);
  (17584483948327, -44); (18046770102367, -43); (110655953183157, -45);
  (35169118936195, -45); (72178058955755, -45); (110629354556477, -45);
  (8792316773717, -43); (18042291910143, -43); (110603152505651, -45);
  (35169412408829, -45); (36080201702089, -44); (13822167185623, -42);
  (8792388746551, -43); (18037940820983, -43); (110551900161489, -45);
  (4396211865491, -42); (18035811087939, -43); (55263415778219, -44);
  (35169832300331, -45); (18033710964129, -43); (110502123003045, -45);
  (1099061472873, -40); (4507909945083, -41); (110477766017413, -45);
  (35170099512477, -45); (72118387484853, -45); (110453752486825, -45);
  (17585114766199, -44); (36055163222003, -44); (55215037271423, -44);
  (35170357236719, -45); (72102373555377, -45); (110406724527923, -45);
  (17585241345603, -44); (72094526419053, -45); (55191847525833, -44);
  (35170605940541, -45); (2252711961907, -40); (110360979002719, -45);
  (68692826247, -36); (36039570160599, -44); (110338569344791, -45)].

(** binomialbounds.go:165-287 ubEquivTable; an entry (m, e) is m * 2^e, the binary64 nearest to the decimal literal *)
Definition ub_tab : list (Z * Z) := [
  (1, 0); (2, 0); (3, 0);
  (2178523099553, -41); (15433670303061, -43); (43638407219847, -44);
  (34927708461963, -45); (62929345593329, -45); (89320396396799, -45);
  (8743495256417, -43); (15925087734685, -43); (22677354858959, -43);
  (35005849269259, -45); (16063946511113, -43); (45873305260723, -44);
  (35029087258035, -45); (64682654218715, -45); (5785340186055, -41);
  (2190424677735, -41); (4064067633911, -41); (46618186913179, -44);
  (35060751106471, -45); (32654153422361, -44); (46900501632507, -44);
  (35072046259065, -45); (65548012254083, -45); (94285863427977, -45);
  (17540692463309, -44); (65754553941555, -45); (94708864034685, -45);
  (35089238799199, -45); (65935100265825, -45); (47541318231385, -44);
  (17547971243021, -44); (66094795919927, -45); (95416399198175, -45);
  (4387716718669, -42); (66237451326455, -45); (47858537673451, -44);
  (35106789964423, -45); (4147872252809, -41); (47994994468949, -44);
  (35111245037079, -45); (66482552434633, -45); (96239312233379, -45);
  (1097349972577, -40); (66589005895583, -45); (96468374915361, -45);
  (35118735601611, -45); (66686734582475, -45); (96679870355185, -45);
  (35121917760469, -45); (33388445494011, -44); (48438003670429, -44);
  (17562398940213, -44); (4178776451407, -41); (97058618902679, -45);
  (4390926839539, -42); (33469059340545, -44); (97229238881395, -45);
  (8782451461229, -43); (33505319156961, -44); (97389166591823, -45);
  (35131999354553, -45); (4192408871927, -41); (97539504226125, -45);
  (4391752020605, -42); (67142308151579, -45); (97681204824239, -45);
  (8783970585431, -43); (16800587055077, -43); (97815087617059, -45);
  (8784402686137, -43); (67259016221001, -45); (97941865509989, -45);
  (35139215405311, -45); (67312622081453, -45); (98062164662931, -45);
  (35140710949261, -45); (67363436001043, -45); (24544133165129, -43);
  (17571055289553, -44); (33705847926759, -44); (98285454932399, -45);
  (35143421264283, -45); (67457611855087, -45); (12298670205011, -42);
  (4393080904153, -42); (67501373050593, -45); (98488637448161, -45);
  (8786450693557, -43); (67543141958827, -45); (98583624559439, -45);
  (8786722217013, -43); (67583068439027, -45); (24668657601227, -43);
  (35147918295623, -45); (67621286265763, -45); (98761932817235, -45);
  (17574443953487, -44); (33828957922177, -44); (98845783745747, -45);
  (35149808611391, -45); (16923266690915, -43); (49463204644289, -44);
  (17575339521885, -44); (1058231810493, -39); (49502007977851, -44);
  (137310571955, -37); (67759313744455, -45); (99078793527207, -45);
  (35152294159289, -45); (67790580466567, -45); (49575456116891, -44);
  (35153043719863, -45); (67820710139251, -45); (99220530697971, -45);
  (17576880209871, -44); (33924886786871, -44); (99287791416887, -45);
  (2197152551407, -41); (67877830331223, -45); (99352831440491, -45);
  (17577546050645, -44); (33952470024861, -44); (12426971219261, -42);
  (2197232221019, -41); (67931153009847, -45); (99476720034841, -45);
  (35156312809259, -45); (67956520731741, -45); (99535789492939, -45);
  (8789220928975, -43); (67981087296567, -45); (24898268145243, -43);
  (35157433237675, -45); (68004894984229, -45); (99648660644169, -45);
  (17578979665183, -44); (68027979230371, -45); (49851318700497, -44);
  (35158465974489, -45); (34025191323377, -44); (99755080378627, -45);
  (2197434477859, -41); (68072134652119, -45); (99806062911075, -45);
  (8789855091777, -43); (17023316085515, -43); (49927826232015, -44);
  (17579935953571, -44); (68113804058939, -45); (49951956239419, -44);
  (8790076389443, -43); (34066891322671, -44); (99950904970115, -45);
  (35160724341547, -45); (68153223054255, -45); (24999170335113, -43);
  (35161131467195, -45); (17043037595155, -43); (100041297228225, -45);
  (35161521183099, -45); (68190586004617, -45); (50042401138937, -44);
  (17580949323735, -44); (68208552298989, -45); (50063619947887, -44);
  (17581132210573, -44); (4264129289339, -41); (50084327999983, -44);
  (2197663581677, -41); (68243154066225, -45); (50104545925131, -44);
  (35162957798979, -45); (68259823023229, -45); (50124292827645, -44);
  (35163287617681, -45); (68276097220113, -45); (100287173758571, -45);
  (8790902717797, -43); (8536498706743, -42); (12540611479401, -42);
  (1098872466025, -40); (17076878666239, -43); (392038174981, -37);
  (17582111781175, -44); (68322687456045, -45); (100397845626075, -45);
  (35164512757569, -45); (34168760252813, -44); (100433142863721, -45);
  (35164800613867, -45); (68352026537831, -45); (100467688993963, -45);
  (35165076963495, -45); (68366219327841, -45); (12562689394671, -42);
  (35165342727411, -45); (68380108323093, -45); (100534642609955, -45);
  (35165604978325, -45); (34196852487009, -44); (25141774858107, -43);
  (35165859375195, -45); (68407017204029, -45); (100598902742155, -45);
  (17583051379723, -44); (34210029243605, -44); (100630079230961, -45);
  (17583172878291, -44); (68432837375095, -45); (196602831715, -36);
  (35166576800547, -45); (68445359267483, -45); (100690629657179, -45);
  (8791701199471, -43); (68457634651277, -45); (100720042932901, -45);
  (17583513856987, -44); (68469675944891, -45); (100748905040483, -45);
  (35167244454091, -45); (68481483937279, -45); (50388616885033, -44);
  (35167455545989, -45); (68493069200299, -45); (6300315300285, -41);
  (17583830049901, -44); (17126109869051, -43); (50416177283885, -44);
  (8791965122121, -43); (535278116499, -38); (3151849340563, -40);
  (4396007257223, -42); (68526554055865, -45); (100885532054631, -45);
  (35168247500957, -45); (2141791107205, -40); (100911427177221, -45);
  (4396054164125, -42); (68547885182649, -45); (50468439537721, -44);
  (35168615334641, -45); (68558268237513, -45); (100961897314563, -45);
  (35168795974209, -45); (68568472527797, -45); (100986497008497, -45);
  (17584483089487, -44); (68578502302615, -45); (101010690148675, -45);
  (17584569378159, -44); (68588361661747, -45); (50517243235679, -44);
  (35169301322725, -45); (17149514009329, -43); (25264474551067, -43);
  (17584732712489, -44); (17151897413913, -43); (101080933888559, -45);
  (8792406336269, -43); (68616969091799, -45); (101103606006477, -45);
  (17584891014519, -44); (68626194804783, -45); (12640740153705, -42);
  (35169931101875, -45); (17158818407665, -43); (101147892060981, -45);
  (17585041743643, -44); (2145131494447, -40); (50584762097347, -44);
  (17585115368733, -44); (34326502161085, -44); (101190830237075, -45);
  (17585186827445, -44); (8582708026405, -42); (3162869262793, -40);
  (35170512094647, -45); (34335094500147, -44); (50616245246063, -44);
  (17585324464377, -44); (34339292887475, -44); (12656607502535, -42);
  (35170783580993, -45); (8585857062537, -42); (101272933860097, -45);
  (4396364526073, -42); (68695004099513, -45); (101292716695615, -45);
  (8792761555221, -43); (17175758103067, -43); (50656109913547, -44);
  (17585586543251, -44); (34355471438657, -44); (101331445568355, -45);
  (17585649358121, -44); (68718739372425, -45); (101350401610695, -45);
  (35171419763095, -45); (34363213173095, -44); (101369096293127, -45);
  (35171538748559, -45); (68734002920271, -45); (3168360442669, -40);
  (1099114213839, -40); (17185368444585, -43); (25351430238357, -43);
  (35171772654615, -45); (34374419658091, -44); (101423663649737, -45);
  (17585941973463, -44); (34378053140799, -44); (50720682611923, -44);
  (35171999301807, -45); (34381635864339, -44); (50729417044727, -44);
  (35172105602459, -45); (68770342269281, -45); (50738037083975, -44);
  (17586105585857, -44); (8597164821391, -42); (101493089754703, -45);
  (4396539584831, -42); (4299012564305, -41); (101509886583459, -45);
  (4396552676363, -42); (68790992895577, -45); (12690808644567, -42);
  (17586262074703, -44); (68797695248065, -45); (50771421660681, -44);
  (35172621017333, -45); (34402157040659, -44); (101559009703817, -45);
  (35172721726813, -45); (537584733443, -38); (6348435990955, -41);
  (35172817993703, -45); (68817297527241, -45); (50795373902957, -44);
  (8793228610779, -43); (68823666979711, -45); (101606323562947, -45);
  (35173007980651, -45); (68829954829475, -45); (101621712056627, -45);
  (4396637520605, -42); (68836167002515, -45); (101636915042597, -45);
  (17586594599803, -44); (68842301838007, -45); (6353246122061, -41);
  (8793320465047, -43); (34424182347995, -44); (101666782945341, -45);
  (17586684797431, -44); (1075849269271, -39); (794386346779, -38);
  (35173452041449, -45); (17215066900621, -43); (101695953942683, -45)].

Definition f_of_N (n : N) : f64 := f_of_Z (Z.of_N n).
Definition f_half : f64 := f_lit 1 (-1).
Definition f_one : f64 := f_of_Z 1.
Definition f_tab (t : list (Z * Z)) (i : nat) : option f64 :=
  match nth_error t i with None => None | Some (m, e) => Some (f_lit m e) end.

(** binomialbounds.go:322-328 contClassicLB *)
Definition cont_classic_lb (n : N) (theta sd : f64) : f64 :=
  let nHat := fdiv (fsub (f_of_N n) f_half) theta in
  let b := fmul sd (fsqrt (fdiv (fsub f_one theta) theta)) in
  let d := fmul (fmul f_half b) (fsqrt (fadd (fmul b b) (fmul (f_of_Z 4) nHat))) in
  let center := fadd nHat (fmul f_half (fmul b b)) in
  fsub center d.

(** binomialbounds.go:331-337 contClassicUB *)
Definition cont_classic_ub (n : N) (theta sd : f64) : f64 :=
  let nHat := fdiv (fadd (f_of_N n) f_half) theta in
  let b := fmul sd (fsqrt (fdiv (fsub f_one theta) theta)) in
  let d := fmul (fmul f_half b) (fsqrt (fadd (fmul b b) (fmul (f_of_Z 4) nHat))) in
  let center := fadd nHat (fmul f_half (fmul b b)) in
  fadd center d.

Section Bounds.
Variable flog : f64 -> f64.
Variable fpow : f64 -> f64 -> f64.

(** The literals 500.0, 360.0, 1e-100 and 1e-5 *)
Definition f_500 : f64 := f_of_Z 500.
Definition f_360 : f64 := f_of_Z 360.
Definition f_1em100 : f64 := f_lit (492525077454931) (-381).
(* the constant expression 1 - 1e-5 is exact in Go and then rounded *)
Definition f_almost_one : f64 := f_lit (9007109182748445) (-53).

(** binomialbounds.go:360-364: the loop of specialNStar *)
Fixpoint nstar_loop (fuel : nat) (n : N) (q delta cur tot : f64) (m : N) : option N :=
  match fuel with
  | O => None
  | S fuel' =>
      if fle tot delta
      then let cur := fdiv (fmul (fmul cur q) (f_of_N m)) (f_of_N (m + 1 - n)) in
           nstar_loop fuel' n q delta cur (fadd tot cur) (m + 1)
      else Some m
  end.

(** binomialbounds.go:348-367 specialNStar *)
Definition special_n_star (fuel : nat) (n : N) (p delta : f64) : option (res N) :=
  let q := fsub f_one p in
  if fle f_500 (fdiv (f_of_N n) p) then Some Err
  else let cur := fpow p (f_of_N n) in
       if fle cur f_1em100 then Some Err
       else match nstar_loop fuel n q delta cur cur n with None => None | Some m => Some (Ok (m - 1)%N) end.

(** binomialbounds.go:380-384: the loop of specialNPrimeB *)
Fixpoint nprime_loop (fuel : nat) (n : N) (q omd cur tot : f64) (m : N) : option N :=
  match fuel with
  | O => None
  | S fuel' =>
      if flt tot omd
      then let cur := fdiv (fmul (fmul cur q) (f_of_N m)) (f_of_N (m + 1 - n)) in
           nprime_loop fuel' n q omd cur (fadd tot cur) (m + 1)
      else Some m
  end.

(** binomialbounds.go:371-386 specialNPrimeB *)
Definition special_n_prime_b (fuel : nat) (n : N) (p delta : f64) : option (res N) :=
  let q := fsub f_one p in
  let omd := fsub f_one delta in
  let cur := fpow p (f_of_N n) in
  if fle cur f_1em100 then Some Err
  else match nprime_loop fuel n q omd cur cur n with None => None | Some m => Some (Ok m) end.

(** binomialbounds.go:388-394 specialNPrimeF *)
Definition special_n_prime_f (fuel : nat) (n : N) (p delta : f64) : option (res N) :=
  if fle f_500 (fdiv (f_of_N n) p) then Some Err else special_n_prime_b fuel (n + 1) p delta.

(** An index out of range panics. *)
Definition with_tab (o : option f64) (k : f64 -> option (res f64)) : option (res f64) :=
  match o with None => Some Panic | Some v => k v end.
Definition with_count (o : option (res N)) : option (res f64) :=
  match o with
  | None => None
  | Some Err => Some Err
  | Some Panic => Some Panic
  | Some (Ok m) => Some (Ok (f_of_N m))
  end.

(** binomialbounds.go:398-433 computeApproxBinomialLowerBound *)
Definition approx_lb (fuel : nat) (n : N) (theta : f64) (sd : nat) : option (res f64) :=
  if feq theta f_one then Some (Ok (f_of_N n))
  else if (n =? 0)%N then Some (Ok f_zero)
  else if (n =? 1)%N then
    with_tab (f_tab delta_tab sd) (fun delta =>
      Some (Ok (ffloor (fdiv (flog (fsub f_one delta)) (flog (fsub f_one theta))))))
  else if (120 <? n)%N then Some (Ok (fsub (cont_classic_lb n theta (f_of_Z (Z.of_nat sd))) f_half))
  else if flt f_almost_one theta then Some (Ok (f_of_N n))
  else if flt theta (fdiv (f_of_N n) f_360) then
    with_tab (f_tab lb_tab (3 * N.to_nat n + (sd - 1))) (fun v => Some (Ok (fsub (cont_classic_lb n theta v) f_half)))
  else with_tab (f_tab delta_tab sd) (fun delta => with_count (special_n_star fuel n theta delta)).

(** binomialbounds.go:437-469 computeApproxBinomialUpperBound *)
Definition approx_ub (fuel : nat) (n : N) (theta : f64) (sd : nat) : option (res f64) :=
  if feq theta f_one then Some (Ok (f_of_N n))
  else if (n =? 0)%N then
    with_tab (f_tab delta_tab sd) (fun delta =>
      Some (Ok (fceil (fdiv (flog delta) (flog (fsub f_one theta))))))
  else if (120 <? n)%N then Some (Ok (fadd (cont_classic_ub n theta (f_of_Z (Z.of_nat sd))) f_half))
  else if flt f_almost_one theta then Some (Ok (f_of_N (n + 1)))
  else if flt theta (fdiv (f_of_N n) f_360) then
    with_tab (f_tab ub_tab (3 * N.to_nat n + (sd - 1))) (fun v => Some (Ok (fadd (cont_classic_ub n theta v) f_half)))
  else with_tab (f_tab delta_tab sd) (fun delta => with_count (special_n_prime_f fuel n theta delta)).

(** binomialbounds.go:471-476 validateTheta, :478-483 validateNumStdDevs *)
Definition theta_invalid (theta : f64) : bool := fle theta f_zero || flt f_one theta.
Definition sd_invalid (sd : nat) : bool := ((sd <? 1) || (3 <? sd))%nat.

Definition map_ok (o : option (res f64)) (g : f64 -> f64) : option (res f64) :=
  match o with Some (Ok v) => Some (Ok (g v)) | o => o end.

(** binomialbounds.go:290-303 LowerBound, :306-319 UpperBound *)
Definition bb_lower (fuel : nat) (n : N) (theta : f64) (sd : nat) : option (res f64) :=
  if theta_invalid theta then Some Err else if sd_invalid sd then Some Err
  else map_ok (approx_lb fuel n theta sd) (fun lb => fmin (fdiv (f_of_N n) theta) (fmax (f_of_N n) lb)).
Definition bb_upper (fuel : nat) (n : N) (theta : f64) (sd : nat) : option (res f64) :=
  if theta_invalid theta then Some Err else if sd_invalid sd then Some Err
  else map_ok (approx_ub fuel n theta sd) (fun ub => fmax (fdiv (f_of_N n) theta) ub).

(** A sketch, for these methods: IsEmpty, Theta64, NumRetained.
    theta/update_sketch.go:151-186, theta/compact_sketch.go:141-184, theta/wrapped_compact_sketch.go:76-107,
    tuple/update_sketch.go:151-206 and the same methods of the other tuple sketches. *)
Definition theta_fraction (theta64 : N) : f64 := fdiv (f_of_N theta64) (f_of_N MaxTheta).
Definition estimation_mode (empty : bool) (theta64 : N) : bool := (theta64 <? MaxTheta)%N && negb empty.
Definition estimate (theta64 n : N) : f64 := fdiv (f_of_N n) (theta_fraction theta64).
Definition lower_bound (fuel : nat) (empty : bool) (theta64 n : N) (sd : nat) : option (res f64) :=
  if estimation_mode empty theta64 then bb_lower fuel n (theta_fraction theta64) sd else Some (Ok (f_of_N n)).
Definition upper_bound (fuel : nat) (empty : bool) (theta64 n : N) (sd : nat) : option (res f64) :=
  if estimation_mode empty theta64 then bb_upper fuel n (theta_fraction theta64) sd else Some (Ok (f_of_N n)).

(** tuple/update_sketch.go:169-180, 190-201 LowerBoundFromSubset, UpperBoundFromSubset *)
Definition lower_bound_from_subset (fuel : nat) (empty : bool) (theta64 n : N) (sd : nat) (k : N) : option (res f64) :=
  lower_bound fuel empty theta64 (N.min k n) sd.
Definition upper_bound_from_subset (fuel : nat) (empty : bool) (theta64 n : N) (sd : nat) (k : N) : option (res f64) :=
  upper_bound fuel empty theta64 (N.min k n) sd.
End Bounds.

(** theta/utils.go:54-59 startingThetaFromP, theta/update_sketch.go:103-105 (rejects p <= 0 and p > 1).  [p] is the float64
    value of the float32 argument.  The conversion uint64(x) truncates (the argument is below 2^63 here). *)
Definition starting_theta (p : f64) : option N :=
  if fle p f_zero || flt f_one p then None
  else Some (if flt p f_one then Z.to_N (Btrunc (fmul (f_of_N MaxTheta) p)) else MaxTheta).

(** theta/update_sketch.go:129-134 Theta64 *)
Definition theta64_method (empty : bool) (theta : N) : N := if empty then MaxTheta else theta.
