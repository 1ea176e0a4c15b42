(** * Numeric bands used in the proof that the ICON estimate inverts the expected number of coupons (not part of the model).

    Entry i holds l and u such that, for every lgK, the polynomial of the estimator times its cubic term lies between l / 2^20 and u / 2^20
    for c/(2K) between i/32 and (i+1)/32.  They were computed by a script and are checked in CpcIcon. *)
From Coq Require Import ZArith List.
Import ListNotations.
Local Open Scope Z_scope.
Definition icon_bands : list (Z * Z) := [
(1037505,1059631); (1048515,1070955); (1059794,1082559); (1071353,1094453); (1083203,1106648); (1095355,1119156); (1107821,1131988); (1120612,1145159);
(1133741,1158680); (1147223,1172566); (1161071,1186832); (1175299,1201493); (1189924,1216565); (1204962,1232065); (1220430,1248012); (1236344,1264428);
(1252722,1281330); (1269586,1298738); (1286960,1316674); (1304863,1335161); (1323320,1354223); (1342355,1373886); (1361993,1394176); (1382263,1415122);
(1403192,1436752); (1424810,1459099); (1447149,1482196); (1470242,1506075); (1494122,1530774); (1518828,1556331); (1544397,1582784); (1570868,1610175);
(1598284,1638549); (1626688,1667950); (1656126,1698425); (1686646,1730024); (1718297,1762799); (1751130,1796802); (1785201,1832090); (1820563,1868719);
(1857274,1906750); (1895395,1946243); (1934986,1987261); (1976110,2029871); (2018832,2074138); (2063219,2120131); (2109338,2167920); (2157260,2217577);
(2207054,2269174); (2258794,2322786); (2312553,2378488); (2368405,2436358); (2426428,2496473); (2486698,2558914); (2549293,2623768); (2614294,2691114);
(2681785,2761036); (2751852,2833624); (2824582,2908966); (2900064,2987156); (2978391,3068290); (3059658,3152468); (3143966,3239794); (3231416,3330374);
(3322117,3424319); (3416180,3521747); (3513721,3622777); (3614860,3727535); (3719723,3836152); (3828442,3948763); (3941152,4065511); (4057994,4186541);
(4179116,4312007); (4304671,4442068); (4434816,4576887); (4569718,4716637); (4709547,4861495); (4854482,5011647); (5004707,5167285); (5160415,5328609);
(5321807,5495827); (5489090,5669156); (5662482,5848821); (5842207,6035057); (6028500,6228105); (6221603,6428220); (6421770,6635662); (6629262,6850705);
(6844353,7073631); (7067324,7304734); (7298470,7544319); (7538097,7792704)].
