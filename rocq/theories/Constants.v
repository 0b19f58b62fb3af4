(** The numerical constants of takum.h as data: for each name its four
    logarithmic and four linear values (8, 16, 32 and 64 bits).  No proofs in
    this file. *)
From Coq Require Import ZArith List.
Local Open Scope Z_scope.

(** the names, takum.h:52-445 *)
Inductive constant :=
| c_2_PI | c_2_PI_OVER_3 | c_2_PI_OVER_5 | c_3_PI | c_3_PI_OVER_2 | c_3_PI_OVER_4
| c_3_PI_OVER_5 | c_4_PI | c_4_PI_OVER_3 | c_4_PI_OVER_5 | c_5_PI | c_5_PI_OVER_2
| c_5_PI_OVER_3 | c_5_PI_OVER_4 | c_5_PI_OVER_6 | c_6_PI | c_6_PI_OVER_5 | c_GAMMA
| c_LB_10 | c_LB_E | c_LG_2 | c_LG_E | c_LN_10 | c_LN_2
| c_ONE | c_PHI | c_PI | c_PI_OVER_2 | c_PI_OVER_3 | c_PI_OVER_4
| c_PI_OVER_5 | c_PI_OVER_6 | c_SQUARE_ROOT_2 | c_SQUARE_ROOT_3 | c_SQUARE_ROOT_5 | c_SQUARE_ROOT_6.

Definition constants : list (constant * (Z * Z * Z * Z) * (Z * Z * Z * Z)) :=
  (* takum.h:52-60 *) (c_2_PI,
    (81, 20826, 1364851826, 5861993956978437418),
    (78, 20040, 1313373909, 5640897986860631570)) ::
  (* takum.h:63-71 *) (c_2_PI_OVER_3,
    (74, 18922, 1240073127, 5326073524507235592),
    (72, 18480, 1211126926, 5201750538665646433)) ::
  (* takum.h:74-82 *) (c_2_PI_OVER_5,
    (68, 17320, 1135062992, 4875058431539642684),
    (66, 16910, 1108187067, 4759627211931676700)) ::
  (* takum.h:85-93 *) (c_3_PI,
    (83, 21241, 1392062129, 5978861317604848105),
    (80, 20571, 1348153232, 5790274041007061575)) ::
  (* takum.h:96-104 *) (c_3_PI_OVER_2,
    (80, 20531, 1345545809, 5779075245023556610),
    (77, 19638, 1287020320, 5527710182828176525)) ::
  (* takum.h:107-115 *) (c_3_PI_OVER_4,
    (75, 19163, 1255881698, 5393970821850295351),
    (73, 18614, 1219911456, 5239479806676464781)) ::
  (* takum.h:118-126 *) (c_3_PI_OVER_5,
    (73, 18706, 1225931878, 5265337322388048412),
    (71, 18196, 1192518553, 5121828184835532842)) ::
  (* takum.h:129-137 *) (c_4_PI,
    (84, 21536, 1411368146, 6061780029559728912),
    (81, 20772, 1361330027, 5846867943023289097)) ::
  (* takum.h:140-148 *) (c_4_PI_OVER_3,
    (79, 20342, 1333105767, 5725645669669818581),
    (76, 19504, 1278235790, 5489980914817358177)) ::
  (* takum.h:151-159 *) (c_4_PI_OVER_5,
    (75, 19295, 1264543912, 5431174746297810027),
    (73, 18695, 1225182174, 5262117367482955790)) ::
  (* takum.h:162-170 *) (c_5_PI,
    (85, 21764, 1426343056, 6126096779290852382),
    (82, 20973, 1374506821, 5903461845039516619)) ::
  (* takum.h:173-181 *) (c_5_PI_OVER_2,
    (82, 21054, 1379826736, 5926310706709560887),
    (80, 20443, 1339727498, 5754085790893086614)) ::
  (* takum.h:184-192 *) (c_5_PI_OVER_3,
    (81, 20639, 1352616434, 5809443346083150200),
    (77, 19772, 1295804850, 5565439450838994873)) ::
  (* takum.h:195-203 *) (c_5_PI_OVER_4,
    (79, 20209, 1324443553, 5688441745222303905),
    (76, 19419, 1272618634, 5465855414741374870)) ::
  (* takum.h:206-214 *) (c_5_PI_OVER_6,
    (76, 19379, 1270022947, 5454707023969482530),
    (73, 18748, 1228695986, 5277209074687283129)) ::
  (* takum.h:217-225 *) (c_6_PI,
    (86, 21951, 1438578449, 6178647390186139600),
    (82, 21083, 1381707664, 5934389229082917447)) ::
  (* takum.h:228-236 *) (c_6_PI_OVER_5,
    (79, 20126, 1318964518, 5664909467550631402),
    (76, 19338, 1267347916, 5443217853934883861)) ::
  (* takum.h:239-247 *) (c_GAMMA,
    (56, 14235, 932875042, 4006667796493970688),
    (57, 14652, 960251518, 4124248866681457786)) ::
  (* takum.h:250-258 *) (c_LB_10,
    (78, 19867, 1301985159, 5591983679339631233),
    (75, 19109, 1252316098, 5378656686748261464)) ::
  (* takum.h:261-269 *) (c_LB_E,
    (70, 17885, 1172126887, 5034246646282250152),
    (68, 17291, 1133159347, 4866882334739234572)) ::
  (* takum.h:272-280 *) (c_LG_2,
    (50, 12901, 845498489, 3631388357515144575),
    (53, 13521, 886113492, 3805828469353250749)) ::
  (* takum.h:283-291 *) (c_LG_E,
    (53, 13652, 894691020, 3842668671442575700),
    (55, 14067, 921886405, 3959471961338889101)) ::
  (* takum.h:294-302 *) (c_LN_10,
    (75, 19116, 1252792628, 5380703365412200108),
    (73, 18587, 1218112623, 5231753878316598625)) ::
  (* takum.h:305-313 *) (c_LN_2,
    (58, 14883, 975356761, 4189125390572525656),
    (59, 15127, 991371647, 4257908804145706907)) ::
  (* takum.h:316-324 *) (c_ONE,
    (64, 16384, 1073741824, 4611686018427387904),
    (64, 16384, 1073741824, 4611686018427387904)) ::
  (* takum.h:327-335 *) (c_PHI,
    (72, 18355, 1202916140, 5166485479809712741),
    (69, 17650, 1156692942, 4967958356531237857)) ::
  (* takum.h:338-346 *) (c_PI,
    (77, 19752, 1294493732, 5559808245760056966),
    (74, 19016, 1246265045, 5352667610708919826)) ::
  (* takum.h:349-357 *) (c_PI_OVER_2,
    (71, 18234, 1194962633, 5132325430464136561),
    (69, 17553, 1150352810, 4940727698383604771)) ::
  (* takum.h:360-368 *) (c_PI_OVER_3,
    (65, 16573, 1086121422, 4664855987958493812),
    (64, 16481, 1080076572, 4638893554297057986)) ::
  (* takum.h:371-379 *) (c_PI_OVER_4,
    (60, 15395, 1008897354, 4333181140138970582),
    (61, 15505, 1016135082, 4364266946080181283)) ::
  (* takum.h:382-390 *) (c_PI_OVER_5,
    (57, 14481, 948997713, 4075914141214476705),
    (58, 14862, 973969339, 4183166459628253212)) ::
  (* takum.h:393-401 *) (c_PI_OVER_6,
    (55, 14035, 919790119, 3950468481878646125),
    (56, 14433, 945858844, 4062432801993634498)) ::
  (* takum.h:404-412 *) (c_SQUARE_ROOT_2,
    (70, 17804, 1166774464, 5011258163589970893),
    (67, 17232, 1129336627, 4850463880207263304)) ::
  (* takum.h:415-423 *) (c_SQUARE_ROOT_3,
    (72, 18533, 1214577311, 5216569827786801830),
    (70, 17883, 1171996020, 5033684577682871610)) ::
  (* takum.h:426-434 *) (c_SQUARE_ROOT_5,
    (74, 19056, 1248858238, 5363805289472806107),
    (72, 18553, 1215880679, 5222167751706880496)) ::
  (* takum.h:437-445 *) (c_SQUARE_ROOT_6,
    (75, 19243, 1261093631, 5416355900368093325),
    (73, 18662, 1223041925, 5252925069550177183)) :: nil.

(** The limits: width, NaR (takum.h:19-27), smallest positive (takum.h:30-38)
    and largest positive (takum.h:41-49), in this order; the values are the
    same for logarithmic and linear takums. *)
Definition limits : list (Z * Z * Z * Z) :=
  (8, -127 - 1, 1, 127) ::
  (16, -32767 - 1, 1, 32767) ::
  (32, -2147483647 - 1, 1, 2147483647) ::
  (64, -9223372036854775807 - 1, 1, 9223372036854775807) :: nil.
