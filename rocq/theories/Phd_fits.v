(** Formulas of ml4gw/waveforms/cbc/phenom_d.py, translated expression by expression from the source by tools/gen_phenom.py
    (one batch element; decimal literals are taken as the exact rationals they denote). *)
From Coq Require Import Reals.
Local Open Scope R_scope.

(** phenom_d.py 1436-1440, [chiPN] *)
Definition chiPN (Seta eta chi1 chi2 : R) : R :=
  let chi_s := chi1 + chi2 in
  let chi_a := chi1 - chi2 in
  (5 / 10) * (chi_s * (1 - eta * 76 / 113) + Seta * chi_a).
(** phenom_d.py 634-657, [sigma1Fit] *)
Definition sigma1Fit (eta eta2 xi : R) : R :=
  (2096551999295543 / 1000000000000) + (14637493168261553 / 10000000000000) * eta + ((13125493286098522 / 10000000000000) + (18307330017082117 /
  1000000000000) * eta - (435341440746107 / 10000000000) * eta2 + ((- (8332889543511114 / 10000000000000)) + (3204731997183187 / 100000000000) * eta -
  (10860945037520859 / 100000000000) * eta2) * xi + ((45225136398112204 / 100000000000000) + (8353439546391714 / 1000000000000) * eta - (445313250037322
  / 10000000000) * eta2) * xi * xi) * xi.
(** phenom_d.py 659-682, [sigma2Fit] *)
Definition sigma2Fit (eta eta2 xi : R) : R :=
  (- (10114056472621156 / 1000000000000)) - (4463101109458185 / 100000000000) * eta + ((- (6541308761668722 / 1000000000000)) - (26695923419307504 /
  100000000000) * eta + (6863283229317984 / 10000000000) * eta2 + ((34056372187679685 / 10000000000000) - (4375077208209015 / 10000000000) * eta +
  (16318171307344697 / 10000000000) * eta2) * xi + ((- (7462648563007646 / 1000000000000)) - (11458525177153319 / 100000000000) * eta +
  (6744024689098676 / 10000000000) * eta2) * xi * xi) * xi.
(** phenom_d.py 684-707, [sigma3Fit] *)
Definition sigma3Fit (eta eta2 xi : R) : R :=
  (22933658273436497 / 1000000000000) + (23096000814979506 / 100000000000) * eta + ((14961083974183695 / 1000000000000) + (11940181342318142 /
  10000000000) * eta - (31042239693052764 / 10000000000) * eta2 + ((- (3038166617199259 / 1000000000000)) + (18720322849093592 / 10000000000) * eta -
  (7309145012085539 / 1000000000) * eta2) * xi + ((4273822871475411 / 100000000000) + (467502018616601 / 1000000000) * eta - (3064853498512499 /
  1000000000) * eta2) * xi * xi) * xi.
(** phenom_d.py 709-732, [sigma4Fit] *)
Definition sigma4Fit (eta eta2 xi : R) : R :=
  (- (1462171522218357 / 100000000000)) - (3778128579387104 / 10000000000) * eta + ((- (9608682631509726 / 1000000000000)) - (17108925257214056 /
  10000000000) * eta + (4332924601416521 / 1000000000) * eta2 + ((- (22366683262266528 / 1000000000000)) - (25019716386377467 / 10000000000) * eta +
  (10274495902259542 / 1000000000) * eta2) * xi + ((- (8536030079034246 / 100000000000)) - (5700253441737515 / 10000000000) * eta + (4396844346849777 /
  1000000000) * eta2) * xi * xi) * xi.
(** phenom_d.py 734-757, [gamma1_fun] *)
Definition gamma1_fun (eta eta2 xi : R) : R :=
  (6927402739328343 / 1000000000000000000) + (3020474290328911 / 100000000000000000) * eta + ((6308024337706171 / 1000000000000000000) -
  (12074130661131138 / 100000000000000000) * eta + (26271598905781324 / 100000000000000000) * eta2 + ((34151773647198794 / 10000000000000000000) -
  (10779338611188374 / 100000000000000000) * eta + (27098966966891747 / 100000000000000000) * eta2) * xi + ((7374185938559283 / 10000000000000000000) -
  (2749621038376281 / 100000000000000000) * eta + (733150789135702 / 10000000000000000) * eta2) * xi * xi) * xi.
(** phenom_d.py 759-782, [gamma2_fun] *)
Definition gamma2_fun (eta eta2 xi : R) : R :=
  (1010344404799477 / 1000000000000000) + (8993122007234548 / 10000000000000000000) * eta + ((283949116804459 / 1000000000000000) - (4049752962958005 /
  1000000000000000) * eta + (13207828172665366 / 1000000000000000) * eta2 + ((10396278486805426 / 100000000000000000) - (7025059158961947 /
  1000000000000000) * eta + (24784892370130475 / 1000000000000000) * eta2) * xi + ((3093202475605892 / 100000000000000000) - (26924023896851663 /
  10000000000000000) * eta + (9609374464684983 / 1000000000000000) * eta2) * xi * xi) * xi.
(** phenom_d.py 784-807, [gamma3_fun] *)
Definition gamma3_fun (eta eta2 xi : R) : R :=
  (13081615607036106 / 10000000000000000) - (5537729694807678 / 1000000000000000000) * eta + ((- (6782917938621007 / 100000000000000000)) -
  (6689834970767117 / 10000000000000000) * eta + (3403147966134083 / 1000000000000000) * eta2 + ((- (5296577374411866 / 100000000000000000)) -
  (9923793203111362 / 10000000000000000) * eta + (4820681208409587 / 1000000000000000) * eta2) * xi + ((- (6134139870393713 / 1000000000000000000)) -
  (38429253308696365 / 100000000000000000) * eta + (17561754421985984 / 10000000000000000) * eta2) * xi * xi) * xi.
(** phenom_d.py 809-832, [beta1Fit] *)
Definition beta1Fit (eta eta2 xi : R) : R :=
  (9789747327985583 / 100000000000000) - (42659730877489224 / 1000000000000000) * eta + ((15348421037904913 / 100000000000000) - (14170620760768954 /
  10000000000000) * eta + (27528614143665027 / 10000000000000) * eta2 + ((1387406469558649 / 10000000000000) - (14336585075135881 / 10000000000000) *
  eta + (28577418952430758 / 10000000000000) * eta2) * xi + ((41025109467376126 / 1000000000000000) - (423680737974639 / 1000000000000) * eta +
  (8503594335657173 / 10000000000000) * eta2) * xi * xi) * xi.
(** phenom_d.py 834-857, [beta2Fit] *)
Definition beta2Fit (eta eta2 xi : R) : R :=
  (- (3282701958759534 / 1000000000000000)) - (9051384468245866 / 1000000000000000) * eta + ((- (12415449742258042 / 1000000000000000)) +
  (554716447709787 / 10000000000000) * eta - (10605109938966335 / 100000000000000) * eta2 + ((- (11953044553690658 / 1000000000000000)) +
  (7680704618365418 / 100000000000000) * eta - (15533172948098394 / 100000000000000) * eta2) * xi + ((- (34129261592393263 / 10000000000000000)) +
  (25572377569952536 / 1000000000000000) * eta - (54408036707740465 / 1000000000000000) * eta2) * xi * xi) * xi.
(** phenom_d.py 859-882, [beta3Fit] *)
Definition beta3Fit (eta eta2 xi : R) : R :=
  (- (25156429818799565 / 1000000000000000000000)) + (19750256942201327 / 1000000000000000000000) * eta + ((- (18370671469295915 /
  1000000000000000000000)) + (21886317041311973 / 1000000000000000000000) * eta + (8250240316860033 / 100000000000000000000) * eta2 + ((7157371250566708
  / 1000000000000000000000) - (55780000112270685 / 1000000000000000000000) * eta + (19142082884072178 / 100000000000000000000) * eta2) * xi +
  ((5447166261464217 / 1000000000000000000000) - (3220610095021982 / 100000000000000000000) * eta + (7974016714984341 / 100000000000000000000) * eta2) *
  xi * xi) * xi.
(** phenom_d.py 884-907, [alpha1Fit] *)
Definition alpha1Fit (eta eta2 xi : R) : R :=
  (4331514709695348 / 100000000000000) + (6386332679188081 / 10000000000000) * eta + ((- (3285768747216059 / 100000000000000)) + (24158938269370315 /
  10000000000000) * eta - (5766875169379177 / 1000000000000) * eta2 + ((- (6185459307173841 / 100000000000000)) + (2953967762459948 / 1000000000000) *
  eta - (898629057591497 / 100000000000) * eta2) * xi + ((- (21571435779762044 / 1000000000000000)) + (9812158224673428 / 10000000000000) * eta -
  (32395664895930286 / 10000000000000) * eta2) * xi * xi) * xi.
(** phenom_d.py 909-932, [alpha2Fit] *)
Definition alpha2Fit (eta eta2 xi : R) : R :=
  (- (7020209449091723 / 100000000000000000)) - (16269798450687084 / 100000000000000000) * eta + ((- (1872514685185499 / 10000000000000000)) +
  (1138313650449945 / 1000000000000000) * eta - (28334196304430046 / 10000000000000000) * eta2 + ((- (17137955686840617 / 100000000000000000)) +
  (17197549338119527 / 10000000000000000) * eta - (4539717148261272 / 1000000000000000) * eta2) * xi + ((- (49983437357548705 / 1000000000000000000)) +
  (6062072055948309 / 10000000000000000) * eta - (1682769616644546 / 1000000000000000) * eta2) * xi * xi) * xi.
(** phenom_d.py 934-957, [alpha3Fit] *)
Definition alpha3Fit (eta eta2 xi : R) : R :=
  (95988072383479 / 10000000000000) - (39705438595557433 / 100000000000000) * eta + ((16202126189517813 / 1000000000000000) - (15748286986717037 /
  10000000000000) * eta + (36003410843831093 / 10000000000000) * eta2 + ((27092429659075467 / 1000000000000000) - (1786482357315139 / 1000000000000) *
  eta + (5152919378666511 / 1000000000000) * eta2) * xi + ((11175710130033895 / 1000000000000000) - (5777999423177481 / 10000000000000) * eta +
  (1808730762932043 / 1000000000000) * eta2) * xi * xi) * xi.
(** phenom_d.py 959-982, [alpha4Fit] *)
Definition alpha4Fit (eta eta2 xi : R) : R :=
  (- (2989487384493607 / 100000000000000000)) + (14022106448583738 / 10000000000000000) * eta + ((- (7356049468633846 / 100000000000000000)) +
  (8337006542278661 / 10000000000000000) * eta + (2240008282397391 / 10000000000000000) * eta2 + ((- (55202870001177226 / 1000000000000000000)) +
  (5667186343606578 / 10000000000000000) * eta + (7186931973380503 / 10000000000000000) * eta2) * xi + ((- (15507437354325743 / 1000000000000000000)) +
  (15750322779277187 / 100000000000000000) * eta + (21076815715176228 / 100000000000000000) * eta2) * xi * xi) * xi.
(** phenom_d.py 984-1007, [alpha5Fit] *)
Definition alpha5Fit (eta eta2 xi : R) : R :=
  (9974408278363099 / 10000000000000000) - (7884449714907203 / 1000000000000000000) * eta + ((- (59046901195591035 / 1000000000000000000)) +
  (13958712396764088 / 10000000000000000) * eta - (4516631601676276 / 1000000000000000) * eta2 + ((- (5585343136869692 / 100000000000000000)) +
  (17516580039343603 / 10000000000000000) * eta - (5990208965347804 / 1000000000000000) * eta2) * xi + ((- (17945336522161195 / 1000000000000000000)) +
  (5965097794825992 / 10000000000000000) * eta - (20608879367971804 / 10000000000000000) * eta2) * xi * xi) * xi.
(** phenom_d.py 1009-1032, [rho1_fun] *)
Definition rho1_fun (eta eta2 xi : R) : R :=
  (39318979897196696 / 10000000000000) - (17395758706812805 / 1000000000000) * eta + ((3132375545898835 / 1000000000000) + (34396586092361377 /
  100000000000) * eta - (12162565819981997 / 10000000000) * eta2 + ((- (7069800600428853 / 100000000000)) + (1383907177859705 / 1000000000) * eta -
  (39662761890979446 / 10000000000) * eta2) * xi + ((- (6001752423652596 / 100000000000)) + (8035151181825735 / 10000000000) * eta - (2091710365941658 /
  1000000000) * eta2) * xi * xi) * xi.
(** phenom_d.py 1034-1057, [rho2_fun] *)
Definition rho2_fun (eta eta2 xi : R) : R :=
  (- (4010547653771657 / 100000000000)) + (1122530169706701 / 10000000000) * eta + ((23561696065836168 / 1000000000000) - (3476180699403351 /
  1000000000) * eta + (1137593670849482 / 100000000) * eta2 + ((7543131127166454 / 10000000000) - (1308476044625268 / 100000000) * eta +
  (36444584853928134 / 1000000000) * eta2) * xi + ((596226612472288 / 1000000000) - (74277901143564405 / 10000000000) * eta + (18928977514040343 /
  1000000000) * eta2) * xi * xi) * xi.
(** phenom_d.py 1059-1082, [rho3_fun] *)
Definition rho3_fun (eta eta2 xi : R) : R :=
  (8320835471266537 / 100000000000) - (1912377264145924 / 10000000000) * eta + ((- (2109162454782992 / 10000000000)) + (871797508352568 / 100000000) *
  eta - (26914942420669552 / 1000000000) * eta2 + ((- (19889806527362722 / 10000000000)) + (30888029960154563 / 1000000000) * eta - (8390870279256162 /
  100000000) * eta2) * xi + ((- (14535031953446497 / 10000000000)) + (17063528990822166 / 1000000000) * eta - (42748659731120914 / 1000000000) * eta2) *
  xi * xi) * xi.
(** phenom_d.py 1084-1106, [FinalSpin0815] *)
Definition FinalSpin0815 (eta eta2 chi1 chi2 : R) : R :=
  let Seta := (sqrt (Rmax (1 - 4 * eta) 0)) in
  let m1 := (5 / 10) * (1 + Seta) in
  let m2 := (5 / 10) * (1 - Seta) in
  let m1s := m1 * m1 in
  let m2s := m2 * m2 in
  let s := m1s * chi1 + m2s * chi2 in
  let eta3 := eta2 * eta in
  let s2 := s * s in
  let s3 := s2 * s in
  eta * ((34641016151377544 / 10000000000000000) - (4399247300629289 / 1000000000000000) * eta + (9397292189321194 / 1000000000000000) * eta2 -
  (13180949901606242 / 1000000000000000) * eta3 + (1 / eta - (850917821418767 / 10000000000000000) - (5837029316602263 / 1000000000000000) * eta +
  ((1014665242971878 / 10000000000000000) - (20967746996832157 / 10000000000000000) * eta) * s + ((- (13546806617824356 / 10000000000000000)) +
  (4108962025369336 / 1000000000000000) * eta) * s2 + ((- (8676969352555539 / 10000000000000000)) + (2064046835273906 / 1000000000000000) * eta) * s3) *
  s).
(** phenom_d.py 1108-1143, [PhenomInternal_EradRational0815] *)
Definition PhenomInternal_EradRational0815 (eta eta2 chi1 chi2 : R) : R :=
  let Seta := (sqrt (Rmax (1 - 4 * eta) 0)) in
  let m1 := (5 / 10) * (1 + Seta) in
  let m2 := (5 / 10) * (1 - Seta) in
  let m1s := m1 * m1 in
  let m2s := m2 * m2 in
  let s := (m1s * chi1 + m2s * chi2) / (m1s + m2s) in
  let eta3 := eta2 * eta in
  eta * ((55974469826360077 / 1000000000000000000) + (5809510763115132 / 10000000000000000) * eta - (9606726679372312 / 10000000000000000) * eta2 +
  (3352411249771192 / 1000000000000000) * eta3) * (1 + ((- (30302335878845507 / 10000000000000000000)) - (20066110851351073 / 10000000000000000) * eta +
  (77050567802399215 / 10000000000000000) * eta2) * s) / (1 + ((- (6714403054720589 / 10000000000000000)) - (14756929437702908 / 10000000000000000) *
  eta + (7304676214885011 / 1000000000000000) * eta2) * s).
(** phenom_d.py 1145-1168, [AmpIntColFitCoeff] *)
Definition AmpIntColFitCoeff (eta eta2 xi : R) : R :=
  (8149838730507785 / 10000000000000000) + (25747553517454658 / 10000000000000000) * eta + ((11610198035496786 / 10000000000000000) - (23627771785551537
  / 10000000000000000) * eta + (6771038707057573 / 1000000000000000) * eta2 + ((7570782938606834 / 10000000000000000) - (27256896890432474 /
  10000000000000000) * eta + (71140380397149965 / 10000000000000000) * eta2) * xi + ((1766934149293479 / 10000000000000000) - (7978690983168183 /
  10000000000000000) * eta + (21162391502005153 / 10000000000000000) * eta2) * xi * xi) * xi.
(** phenom_d.py 1182-1230, [delta_0] *)
Definition delta_0 (f1 f2 f3 v1 v2 v3 d1 d2 : R) : R :=
  let f12 := f1 * f1 in
  let f13 := f1 * f12 in
  let f14 := f1 * f13 in
  let f15 := f1 * f14 in
  let f22 := f2 * f2 in
  let f23 := f2 * f22 in
  let f24 := f2 * f23 in
  let f32 := f3 * f3 in
  let f33 := f3 * f32 in
  let f34 := f3 * f33 in
  let f35 := f3 * f34 in
  (- ((d2 * f15 * f22 * f3 - 2 * d2 * f14 * f23 * f3 + d2 * f13 * f24 * f3 - d2 * f15 * f2 * f32 + d2 * f14 * f22 * f32 - d1 * f13 * f23 * f32 + d2 *
  f13 * f23 * f32 + d1 * f12 * f24 * f32 - d2 * f12 * f24 * f32 + d2 * f14 * f2 * f33 + 2 * d1 * f13 * f22 * f33 - 2 * d2 * f13 * f22 * f33 - d1 * f12 *
  f23 * f33 + d2 * f12 * f23 * f33 - d1 * f1 * f24 * f33 - d1 * f13 * f2 * f34 - d1 * f12 * f22 * f34 + 2 * d1 * f1 * f23 * f34 + d1 * f12 * f2 * f35 -
  d1 * f1 * f22 * f35 + 4 * f12 * f23 * f32 * v1 - 3 * f1 * f24 * f32 * v1 - 8 * f12 * f22 * f33 * v1 + 4 * f1 * f23 * f33 * v1 + f24 * f33 * v1 + 4 *
  f12 * f2 * f34 * v1 + f1 * f22 * f34 * v1 - 2 * f23 * f34 * v1 - 2 * f1 * f2 * f35 * v1 + f22 * f35 * v1 - f15 * f32 * v2 + 3 * f14 * f33 * v2 - 3 *
  f13 * f34 * v2 + f12 * f35 * v2 - f15 * f22 * v3 + 2 * f14 * f23 * v3 - f13 * f24 * v3 + 2 * f15 * f2 * f3 * v3 - f14 * f22 * f3 * v3 - 4 * f13 * f23
  * f3 * v3 + 3 * f12 * f24 * f3 * v3 - 4 * f14 * f2 * f32 * v3 + 8 * f13 * f22 * f32 * v3 - 4 * f12 * f23 * f32 * v3) / ((f1 - f2) ^ 2 * ((f1 - f3) ^
  3) * ((f3 - f2) ^ 2)))).
(** phenom_d.py 1232-1278, [delta_1] *)
Definition delta_1 (f1 f2 f3 v1 v2 v3 d1 d2 : R) : R :=
  let f12 := f1 * f1 in
  let f13 := f1 * f12 in
  let f14 := f1 * f13 in
  let f15 := f1 * f14 in
  let f22 := f2 * f2 in
  let f23 := f2 * f22 in
  let f24 := f2 * f23 in
  let f32 := f3 * f3 in
  let f33 := f3 * f32 in
  let f34 := f3 * f33 in
  let f35 := f3 * f34 in
  (- (((- (d2 * f15 * f22)) + 2 * d2 * f14 * f23 - d2 * f13 * f24 - d2 * f14 * f22 * f3 + 2 * d1 * f13 * f23 * f3 + 2 * d2 * f13 * f23 * f3 - 2 * d1 *
  f12 * f24 * f3 - d2 * f12 * f24 * f3 + d2 * f15 * f32 - 3 * d1 * f13 * f22 * f32 - d2 * f13 * f22 * f32 + 2 * d1 * f12 * f23 * f32 - 2 * d2 * f12 *
  f23 * f32 + d1 * f1 * f24 * f32 + 2 * d2 * f1 * f24 * f32 - d2 * f14 * f33 + d1 * f12 * f22 * f33 + 3 * d2 * f12 * f22 * f33 - 2 * d1 * f1 * f23 * f33
  - 2 * d2 * f1 * f23 * f33 + d1 * f24 * f33 + d1 * f13 * f34 + d1 * f1 * f22 * f34 - 2 * d1 * f23 * f34 - d1 * f12 * f35 + d1 * f22 * f35 - 8 * f12 *
  f23 * f3 * v1 + 6 * f1 * f24 * f3 * v1 + 12 * f12 * f22 * f32 * v1 - 8 * f1 * f23 * f32 * v1 - 4 * f12 * f34 * v1 + 2 * f1 * f35 * v1 + 2 * f15 * f3 *
  v2 - 4 * f14 * f32 * v2 + 4 * f12 * f34 * v2 - 2 * f1 * f35 * v2 - 2 * f15 * f3 * v3 + 8 * f12 * f23 * f3 * v3 - 6 * f1 * f24 * f3 * v3 + 4 * f14 *
  f32 * v3 - 12 * f12 * f22 * f32 * v3 + 8 * f1 * f23 * f32 * v3) / ((f1 - f2) ^ 2 * ((f1 - f3) ^ 3) * (((- f2) + f3) ^ 2)))).
(** phenom_d.py 1280-1336, [delta_2] *)
Definition delta_2 (f1 f2 f3 v1 v2 v3 d1 d2 : R) : R :=
  let f12 := f1 * f1 in
  let f13 := f1 * f12 in
  let f14 := f1 * f13 in
  let f15 := f1 * f14 in
  let f22 := f2 * f2 in
  let f23 := f2 * f22 in
  let f24 := f2 * f23 in
  let f32 := f3 * f3 in
  let f33 := f3 * f32 in
  let f34 := f3 * f33 in
  let f35 := f3 * f34 in
  (- ((d2 * f15 * f2 - d1 * f13 * f23 - 3 * d2 * f13 * f23 + d1 * f12 * f24 + 2 * d2 * f12 * f24 - d2 * f15 * f3 + d2 * f14 * f2 * f3 - d1 * f12 * f23 *
  f3 + d2 * f12 * f23 * f3 + d1 * f1 * f24 * f3 - d2 * f1 * f24 * f3 - d2 * f14 * f32 + 3 * d1 * f13 * f2 * f32 + d2 * f13 * f2 * f32 - d1 * f1 * f23 *
  f32 + d2 * f1 * f23 * f32 - 2 * d1 * f24 * f32 - d2 * f24 * f32 - 2 * d1 * f13 * f33 + 2 * d2 * f13 * f33 - d1 * f12 * f2 * f33 - 3 * d2 * f12 * f2 *
  f33 + 3 * d1 * f23 * f33 + d2 * f23 * f33 + d1 * f12 * f34 - d1 * f1 * f2 * f34 + d1 * f1 * f35 - d1 * f2 * f35 + 4 * f12 * f23 * v1 - 3 * f1 * f24 *
  v1 + 4 * f1 * f23 * f3 * v1 - 3 * f24 * f3 * v1 - 12 * f12 * f2 * f32 * v1 + 4 * f23 * f32 * v1 + 8 * f12 * f33 * v1 - f1 * f34 * v1 - f35 * v1 - f15
  * v2 - f14 * f3 * v2 + 8 * f13 * f32 * v2 - 8 * f12 * f33 * v2 + f1 * f34 * v2 + f35 * v2 + f15 * v3 - 4 * f12 * f23 * v3 + 3 * f1 * f24 * v3 + f14 *
  f3 * v3 - 4 * f1 * f23 * f3 * v3 + 3 * f24 * f3 * v3 - 8 * f13 * f32 * v3 + 12 * f12 * f2 * f32 * v3 - 4 * f23 * f32 * v3) / ((f1 - f2) ^ 2 * ((f1 -
  f3) ^ 3) * (((- f2) + f3) ^ 2)))).
(** phenom_d.py 1338-1390, [delta_3] *)
Definition delta_3 (f1 f2 f3 v1 v2 v3 d1 d2 : R) : R :=
  let f12 := f1 * f1 in
  let f13 := f1 * f12 in
  let f14 := f1 * f13 in
  let f22 := f2 * f2 in
  let f23 := f2 * f22 in
  let f24 := f2 * f23 in
  let f32 := f3 * f3 in
  let f33 := f3 * f32 in
  let f34 := f3 * f33 in
  (- (((- 2) * d2 * f14 * f2 + d1 * f13 * f22 + 3 * d2 * f13 * f22 - d1 * f1 * f24 - d2 * f1 * f24 + 2 * d2 * f14 * f3 - 2 * d1 * f13 * f2 * f3 - 2 * d2
  * f13 * f2 * f3 + d1 * f12 * f22 * f3 - d2 * f12 * f22 * f3 + d1 * f24 * f3 + d2 * f24 * f3 + d1 * f13 * f32 - d2 * f13 * f32 - 2 * d1 * f12 * f2 *
  f32 + 2 * d2 * f12 * f2 * f32 + d1 * f1 * f22 * f32 - d2 * f1 * f22 * f32 + d1 * f12 * f33 - d2 * f12 * f33 + 2 * d1 * f1 * f2 * f33 + 2 * d2 * f1 *
  f2 * f33 - 3 * d1 * f22 * f33 - d2 * f22 * f33 - 2 * d1 * f1 * f34 + 2 * d1 * f2 * f34 - 4 * f12 * f22 * v1 + 2 * f24 * v1 + 8 * f12 * f2 * f3 * v1 -
  4 * f1 * f22 * f3 * v1 - 4 * f12 * f32 * v1 + 8 * f1 * f2 * f32 * v1 - 4 * f22 * f32 * v1 - 4 * f1 * f33 * v1 + 2 * f34 * v1 + 2 * f14 * v2 - 4 * f13
  * f3 * v2 + 4 * f1 * f33 * v2 - 2 * f34 * v2 - 2 * f14 * v3 + 4 * f12 * f22 * v3 - 2 * f24 * v3 + 4 * f13 * f3 * v3 - 8 * f12 * f2 * f3 * v3 + 4 * f1
  * f22 * f3 * v3 + 4 * f12 * f32 * v3 - 8 * f1 * f2 * f32 * v3 + 4 * f22 * f32 * v3) / ((f1 - f2) ^ 2 * ((f1 - f3) ^ 3) * (((- f2) + f3) ^ 2)))).
(** phenom_d.py 1392-1432, [delta_4] *)
Definition delta_4 (f1 f2 f3 v1 v2 v3 d1 d2 : R) : R :=
  let f12 := f1 * f1 in
  let f13 := f1 * f12 in
  let f14 := f1 * f13 in
  let f22 := f2 * f2 in
  let f23 := f2 * f22 in
  let f32 := f3 * f3 in
  let f33 := f3 * f32 in
  let f34 := f3 * f33 in
  (- ((d2 * f13 * f2 - d1 * f12 * f22 - 2 * d2 * f12 * f22 + d1 * f1 * f23 + d2 * f1 * f23 - d2 * f13 * f3 + 2 * d1 * f12 * f2 * f3 + d2 * f12 * f2 * f3
  - d1 * f1 * f22 * f3 + d2 * f1 * f22 * f3 - d1 * f23 * f3 - d2 * f23 * f3 - d1 * f12 * f32 + d2 * f12 * f32 - d1 * f1 * f2 * f32 - 2 * d2 * f1 * f2 *
  f32 + 2 * d1 * f22 * f32 + d2 * f22 * f32 + d1 * f1 * f33 - d1 * f2 * f33 + 3 * f1 * f22 * v1 - 2 * f23 * v1 - 6 * f1 * f2 * f3 * v1 + 3 * f22 * f3 *
  v1 + 3 * f1 * f32 * v1 - f33 * v1 - f13 * v2 + 3 * f12 * f3 * v2 - 3 * f1 * f32 * v2 + f33 * v2 + f13 * v3 - 3 * f1 * f22 * v3 + 2 * f23 * v3 - 3 *
  f12 * f3 * v3 + 6 * f1 * f2 * f3 * v3 - 3 * f22 * f3 * v3) / ((f1 - f2) ^ 2 * ((f1 - f3) ^ 3) * (((- f2) + f3) ^ 2)))).
(** phenom_d.py 289-289, [prefactors_two_thirds] *)
Definition prefactors_two_thirds (eta eta2 Seta xi chi1 chi2 chi12 chi22 : R) : R :=
  let SetaPlus1 := 1 + Seta in
  ((- 969) + 1804 * eta) * (Rpower PI (2 / 3)) / 672.
(** phenom_d.py 290-296, [prefactors_one] *)
Definition prefactors_one (eta eta2 Seta xi chi1 chi2 chi12 chi22 : R) : R :=
  let SetaPlus1 := 1 + Seta in
  (chi1 * (81 * SetaPlus1 - 44 * eta) + chi2 * (81 - 81 * Seta - 44 * eta)) * PI / 48.
(** phenom_d.py 297-314, [prefactors_four_thirds] *)
Definition prefactors_four_thirds (eta eta2 Seta xi chi1 chi2 chi12 chi22 : R) : R :=
  let SetaPlus1 := 1 + Seta in
  ((- 27312085) - 10287648 * chi22 - 10287648 * chi12 * SetaPlus1 + 10287648 * chi22 * Seta + 24 * ((- 1975055) + 857304 * chi12 - 994896 * chi1 * chi2
  + 857304 * chi22) * eta + 35371056 * eta2) * (Rpower PI (4 / 3)) / 8128512.
(** phenom_d.py 315-332, [prefactors_five_thirds] *)
Definition prefactors_five_thirds (eta eta2 Seta xi chi1 chi2 chi12 chi22 : R) : R :=
  let SetaPlus1 := 1 + Seta in
  (Rpower PI (5 / 3)) * (chi2 * ((- 285197) * ((- 1) + Seta) + 4 * ((- 91902) + 1579 * Seta) * eta - 35632 * eta2) + chi1 * (285197 * SetaPlus1 - 4 *
  (91902 + 1579 * Seta) * eta - 35632 * eta2) + 42840 * ((- 1) + 4 * eta) * PI) / 32256.
(** phenom_d.py 333-370, [prefactors_two] *)
Definition prefactors_two (eta eta2 Seta xi chi1 chi2 chi12 chi22 : R) : R :=
  let SetaPlus1 := 1 + Seta in
  (- (PI ^ 2 * ((- 336) * ((- 3248849057) + 2943675504 * chi12 - 3339284256 * chi1 * chi2 + 2943675504 * chi22) * eta2 - 324322727232 * eta2 * eta - 7 *
  ((- 177520268561) + 107414046432 * chi22 + 107414046432 * chi12 * SetaPlus1 - 107414046432 * chi22 * Seta + 11087290368 * (chi1 + chi2 + chi1 * Seta -
  chi2 * Seta) * PI) + 12 * eta * ((- 545384828789) - 176491177632 * chi1 * chi2 + 202603761360 * chi22 + 77616 * chi12 * (2610335 + 995766 * Seta) -
  77287373856 * chi22 * Seta + 5841690624 * (chi1 + chi2) * PI + 21384760320 * (PI ^ 2))))) / 60085960704.
(** phenom_d.py 371-371, [prefactors_seven_thirds] *)
Definition prefactors_seven_thirds (eta eta2 Seta xi chi1 chi2 chi12 chi22 : R) : R :=
  let SetaPlus1 := 1 + Seta in
  (rho1_fun eta eta2 xi).
(** phenom_d.py 372-372, [prefactors_eight_thirds] *)
Definition prefactors_eight_thirds (eta eta2 Seta xi chi1 chi2 chi12 chi22 : R) : R :=
  let SetaPlus1 := 1 + Seta in
  (rho2_fun eta eta2 xi).
(** phenom_d.py 373-373, [prefactors_three] *)
Definition prefactors_three (eta eta2 Seta xi chi1 chi2 chi12 chi22 : R) : R :=
  let SetaPlus1 := 1 + Seta in
  (rho3_fun eta eta2 xi).
(** phenom_d.py 516-544, [pn_ss3] *)
Definition pn_ss3 (eta m1byM m2byM chi1 chi2 : R) : R :=
  let chi1sq := chi1 * chi1 in
  let chi2sq := chi2 * chi2 in
  ((32675 / 100) / (112 / 100) + (5575 / 10) / (18 / 10) * eta) * eta * chi1 * chi2 + (((47035 / 10) / (84 / 10) + 2935 / 6 * m1byM - 120 * m1byM *
  m1byM) * m1byM * m1byM + ((- (410825 / 100)) / (672 / 100) - (1085 / 10) / (12 / 10) * m1byM + (1255 / 10) / (36 / 10) * m1byM * m1byM) * m1byM *
  m1byM) * chi1sq + (((47035 / 10) / (84 / 10) + 2935 / 6 * m2byM - 120 * m2byM * m2byM) * m2byM * m2byM + ((- (410825 / 100)) / (672 / 100) - (1085 /
  10) / (12 / 10) * m2byM + (1255 / 10) / (36 / 10) * m2byM * m2byM) * m2byM * m2byM) * chi2sq.
