(** Ranges of the IMRPhenomD fits on the physical domain, by Bernstein certificates written by tools/gen_phenom_cert.py:
    each polynomial is exhibited as a combination, with non-negative coefficients, of products of powers of u, 1-u, w, 1-w in [0,1]
    (mass ratio eta = u/4, spin xi = -2w or spin sum = (1-2eta)(2w-1)). Coq checks the identities ([field]) and the signs. *)
From Coq Require Import Reals Lra.
From Verif Require Import Phd_fits.
Local Open Scope R_scope.
Lemma bern_term c a b x y i j k l : 0 <= c -> 0 <= a -> 0 <= b -> 0 <= x -> 0 <= y -> 0 <= c * (a ^ i * b ^ j * (x ^ k * y ^ l)).
Proof. intros. apply Rmult_le_pos; [assumption|]. apply Rmult_le_pos; apply Rmult_le_pos; apply pow_le; assumption. Qed.
Local Ltac bern := repeat apply Rplus_le_le_0_compat; (apply bern_term; lra).

Lemma gamma1_fun_lo u w : 0 <= u <= 1 -> 0 <= w <= 1 -> 0 <= gamma1_fun (u / 4) (u / 4 * (u / 4)) (- (2) * w) - (1 / 1000).
Proof.
  intros Hu Hw. unfold gamma1_fun.
  match goal with |- 0 <= ?e => replace e with ((5927402739328343 / 1000000000000000000) * (u ^ 0 * (1 - u) ^ 2 * (w ^ 0 * (1 - w) ^ 3)) + (5166159542572687 / 1000000000000000000) * (u ^ 0 * (1 - u) ^ 2 * (w ^ 1 * (1 - w) ^ 2)) + (31054101630199313 / 5000000000000000000) * (u ^ 0 * (1 - u) ^ 2 * (w ^ 2 * (1 - w) ^ 1)) + (5363573859740461 / 5000000000000000000) * (u ^ 0 * (1 - u) ^ 2 * (w ^ 3 * (1 - w) ^ 0)) + (38811982408957927 / 2000000000000000000) * (u ^ 1 * (1 - u) ^ 1 * (w ^ 0 * (1 - w) ^ 3)) + (186713059136535793 / 2000000000000000000) * (u ^ 1 * (1 - u) ^ 1 * (w ^ 1 * (1 - w) ^ 2)) + (480231183289741977 / 10000000000000000000) * (u ^ 1 * (1 - u) ^ 1 * (w ^ 2 * (1 - w) ^ 1)) + (172663032310160319 / 10000000000000000000) * (u ^ 1 * (1 - u) ^ 1 * (w ^ 3 * (1 - w) ^ 0)) + (26957176930301241 / 2000000000000000000) * (u ^ 2 * (1 - u) ^ 0 * (w ^ 0 * (1 - w) ^ 3)) + (110701742786937109 / 2000000000000000000) * (u ^ 2 * (1 - u) ^ 0 * (w ^ 1 * (1 - w) ^ 2)) + (219403590778551963 / 5000000000000000000) * (u ^ 2 * (1 - u) ^ 0 * (w ^ 2 * (1 - w) ^ 1)) + (72219838936427761 / 5000000000000000000) * (u ^ 2 * (1 - u) ^ 0 * (w ^ 3 * (1 - w) ^ 0))); [bern|] end.
  field.
Qed.
Lemma gamma2_fun_lo u w : 0 <= u <= 1 -> 0 <= w <= 1 -> 0 <= gamma2_fun (u / 4) (u / 4 * (u / 4)) (- (2) * w) - (1 / 5).
Proof.
  intros Hu Hw. unfold gamma2_fun.
  match goal with |- 0 <= ?e => replace e with ((810344404799477 / 1000000000000000) * (u ^ 0 * (1 - u) ^ 2 * (w ^ 0 * (1 - w) ^ 3)) + (1863134980789513 / 1000000000000000) * (u ^ 0 * (1 - u) ^ 2 * (w ^ 1 * (1 - w) ^ 2)) + (42777197166320301 / 25000000000000000) * (u ^ 0 * (1 - u) ^ 2 * (w ^ 2 * (1 - w) ^ 1)) + (10271027815357617 / 25000000000000000) * (u ^ 0 * (1 - u) ^ 2 * (w ^ 3 * (1 - w) ^ 0)) + (16209136376491348637 / 10000000000000000000) * (u ^ 1 * (1 - u) ^ 1 * (w ^ 0 * (1 - w) ^ 3)) + (57518209272085710911 / 10000000000000000000) * (u ^ 1 * (1 - u) ^ 1 * (w ^ 1 * (1 - w) ^ 2)) + (4475440614522246711 / 10000000000000000000) * (u ^ 1 * (1 - u) ^ 1 * (w ^ 2 * (1 - w) ^ 1)) + (12065291551661783237 / 10000000000000000000) * (u ^ 1 * (1 - u) ^ 1 * (w ^ 3 * (1 - w) ^ 0)) + (8105692328496578637 / 10000000000000000000) * (u ^ 2 * (1 - u) ^ 0 * (w ^ 0 * (1 - w) ^ 3)) + (22377074248358873411 / 10000000000000000000) * (u ^ 2 * (1 - u) ^ 0 * (w ^ 1 * (1 - w) ^ 2)) + (16307222241656898811 / 10000000000000000000) * (u ^ 2 * (1 - u) ^ 0 * (w ^ 2 * (1 - w) ^ 1)) + (5362453811588301437 / 10000000000000000000) * (u ^ 2 * (1 - u) ^ 0 * (w ^ 3 * (1 - w) ^ 0))); [bern|] end.
  field.
Qed.
Lemma gamma3_fun_lo u w : 0 <= u <= 1 -> 0 <= w <= 1 -> 0 <= gamma3_fun (u / 4) (u / 4 * (u / 4)) (- (2) * w) - 1.
Proof.
  intros Hu Hw. unfold gamma3_fun.
  match goal with |- 0 <= ?e => replace e with ((1540807803518053 / 5000000000000000) * (u ^ 0 * (1 - u) ^ 2 * (w ^ 0 * (1 - w) ^ 3)) + (53007152044162597 / 50000000000000000) * (u ^ 0 * (1 - u) ^ 2 * (w ^ 1 * (1 - w) ^ 2)) + (768701800530623 / 781250000000000) * (u ^ 0 * (1 - u) ^ 2 * (w ^ 2 * (1 - w) ^ 1)) + (70257485865676451 / 250000000000000000) * (u ^ 0 * (1 - u) ^ 2 * (w ^ 3 * (1 - w) ^ 0)) + (1229877377967038561 / 2000000000000000000) * (u ^ 1 * (1 - u) ^ 1 * (w ^ 0 * (1 - w) ^ 3)) + (4901249066067507943 / 2000000000000000000) * (u ^ 1 * (1 - u) ^ 1 * (w ^ 1 * (1 - w) ^ 2)) + (3280654977705729243 / 2000000000000000000) * (u ^ 1 * (1 - u) ^ 1 * (w ^ 2 * (1 - w) ^ 1)) + (1342745897805713277 / 2000000000000000000) * (u ^ 1 * (1 - u) ^ 1 * (w ^ 3 * (1 - w) ^ 0)) + (613554256559817361 / 2000000000000000000) * (u ^ 2 * (1 - u) ^ 0 * (w ^ 0 * (1 - w) ^ 3)) + (1930175992767483313 / 2000000000000000000) * (u ^ 2 * (1 - u) ^ 0 * (w ^ 1 * (1 - w) ^ 2)) + (2021544989485086363 / 2000000000000000000) * (u ^ 2 * (1 - u) ^ 0 * (w ^ 2 * (1 - w) ^ 1)) + (584064181352976019 / 2000000000000000000) * (u ^ 2 * (1 - u) ^ 0 * (w ^ 3 * (1 - w) ^ 0))); [bern|] end.
  field.
Qed.
Lemma gamma3_fun_hi u w : 0 <= u <= 1 -> 0 <= w <= 1 -> 0 <= (3 / 2) - gamma3_fun (u / 4) (u / 4 * (u / 4)) (- (2) * w).
Proof.
  intros Hu Hw. unfold gamma3_fun.
  match goal with |- 0 <= ?e => replace e with ((959192196481947 / 5000000000000000) * (u ^ 0 * (1 - u) ^ 2 * (w ^ 0 * (1 - w) ^ 3)) + (21992847955837403 / 50000000000000000) * (u ^ 0 * (1 - u) ^ 2 * (w ^ 1 * (1 - w) ^ 2)) + (403173199469377 / 781250000000000) * (u ^ 0 * (1 - u) ^ 2 * (w ^ 2 * (1 - w) ^ 1)) + (54742514134323549 / 250000000000000000) * (u ^ 0 * (1 - u) ^ 2 * (w ^ 3 * (1 - w) ^ 0)) + (770122622032961439 / 2000000000000000000) * (u ^ 1 * (1 - u) ^ 1 * (w ^ 0 * (1 - w) ^ 3)) + (1098750933932492057 / 2000000000000000000) * (u ^ 1 * (1 - u) ^ 1 * (w ^ 1 * (1 - w) ^ 2)) + (2719345022294270757 / 2000000000000000000) * (u ^ 1 * (1 - u) ^ 1 * (w ^ 2 * (1 - w) ^ 1)) + (657254102194286723 / 2000000000000000000) * (u ^ 1 * (1 - u) ^ 1 * (w ^ 3 * (1 - w) ^ 0)) + (386445743440182639 / 2000000000000000000) * (u ^ 2 * (1 - u) ^ 0 * (w ^ 0 * (1 - w) ^ 3)) + (1069824007232516687 / 2000000000000000000) * (u ^ 2 * (1 - u) ^ 0 * (w ^ 1 * (1 - w) ^ 2)) + (978455010514913637 / 2000000000000000000) * (u ^ 2 * (1 - u) ^ 0 * (w ^ 2 * (1 - w) ^ 1)) + (415935818647023981 / 2000000000000000000) * (u ^ 2 * (1 - u) ^ 0 * (w ^ 3 * (1 - w) ^ 0))); [bern|] end.
  field.
Qed.
(* the final-spin polynomial, with the division by eta cancelled (phenom_d.py 1097-1106) *)
Definition fs_poly (eta s : R) : R :=
  eta * ((34641016151377544 / 10000000000000000) - (4399247300629289 / 1000000000000000) * eta + (9397292189321194 / 1000000000000000) * (eta * eta) -
  (13180949901606242 / 1000000000000000) * (eta * eta * eta)) + s + eta * (- (850917821418767 / 10000000000000000) - (5837029316602263 / 1000000000000000) * eta +
  ((1014665242971878 / 10000000000000000) - (20967746996832157 / 10000000000000000) * eta) * s + ((- (13546806617824356 / 10000000000000000)) +
  (4108962025369336 / 1000000000000000) * eta) * (s * s) + ((- (8676969352555539 / 10000000000000000)) + (2064046835273906 / 1000000000000000) * eta) * (s * s * s)) * s.
(* numerator and denominator of the radiated energy (phenom_d.py 1125-1143) *)
Definition er_num (eta s : R) : R :=
  eta * ((55974469826360077 / 1000000000000000000) + (5809510763115132 / 10000000000000000) * eta - (9606726679372312 / 10000000000000000) * (eta * eta) +
  (3352411249771192 / 1000000000000000) * (eta * eta * eta)) * (1 + ((- (30302335878845507 / 10000000000000000000)) - (20066110851351073 / 10000000000000000) * eta +
  (77050567802399215 / 10000000000000000) * (eta * eta)) * s).
Definition er_den (eta s : R) : R :=
  1 + ((- (6714403054720589 / 10000000000000000)) - (14756929437702908 / 10000000000000000) * eta + (7304676214885011 / 1000000000000000) * (eta * eta)) * s.

Lemma fs_hi u w : 0 <= u <= 1 -> 0 <= w <= 1 -> 0 <= 1 - fs_poly (u / 4) ((1 - 2 * (u / 4)) * (2 * w - 1)).
Proof.
  intros Hu Hw. unfold fs_poly.
  match goal with |- 0 <= ?e => replace e with (2 * (u ^ 0 * (1 - u) ^ 6 * (w ^ 0 * (1 - w) ^ 4)) + 6 * (u ^ 0 * (1 - u) ^ 6 * (w ^ 1 * (1 - w) ^ 3)) + 6 * (u ^ 0 * (1 - u) ^ 6 * (w ^ 2 * (1 - w) ^ 2)) + 2 * (u ^ 0 * (1 - u) ^ 6 * (w ^ 3 * (1 - w) ^ 1)) + (209311781759481497 / 20000000000000000) * (u ^ 1 * (1 - u) ^ 5 * (w ^ 0 * (1 - w) ^ 4)) + (626059917788539423 / 20000000000000000) * (u ^ 1 * (1 - u) ^ 5 * (w ^ 1 * (1 - w) ^ 3)) + (643122524846505863 / 20000000000000000) * (u ^ 1 * (1 - u) ^ 5 * (w ^ 2 * (1 - w) ^ 2)) + (32133628039145649 / 4000000000000000) * (u ^ 1 * (1 - u) ^ 5 * (w ^ 3 * (1 - w) ^ 1)) + (185475309936231 / 1000000000000000) * (u ^ 1 * (1 - u) ^ 5 * (w ^ 4 * (1 - w) ^ 0)) + (3617135930618543467 / 160000000000000000) * (u ^ 2 * (1 - u) ^ 4 * (w ^ 0 * (1 - w) ^ 4)) + (676282103830739549 / 10000000000000000) * (u ^ 2 * (1 - u) ^ 4 * (w ^ 1 * (1 - w) ^ 3)) + (1099846567692145229 / 16000000000000000) * (u ^ 2 * (1 - u) ^ 4 * (w ^ 2 * (1 - w) ^ 2)) + (19695298652458469 / 1250000000000000) * (u ^ 2 * (1 - u) ^ 4 * (w ^ 3 * (1 - w) ^ 1)) + (61640903313359587 / 160000000000000000) * (u ^ 2 * (1 - u) ^ 4 * (w ^ 4 * (1 - w) ^ 0)) + (4098378588172356649 / 160000000000000000) * (u ^ 3 * (1 - u) ^ 3 * (w ^ 0 * (1 - w) ^ 4)) + (6096418641270884393 / 80000000000000000) * (u ^ 3 * (1 - u) ^ 3 * (w ^ 1 * (1 - w) ^ 3)) + (3051780669632499601 / 40000000000000000) * (u ^ 3 * (1 - u) ^ 3 * (w ^ 2 * (1 - w) ^ 2)) + (1450138883794985163 / 80000000000000000) * (u ^ 3 * (1 - u) ^ 3 * (w ^ 3 * (1 - w) ^ 1)) + (566079448913399 / 1280000000000000) * (u ^ 3 * (1 - u) ^ 3 * (w ^ 4 * (1 - w) ^ 0)) + (5080037458534006751 / 320000000000000000) * (u ^ 4 * (1 - u) ^ 2 * (w ^ 0 * (1 - w) ^ 4)) + (59930024045199947 / 1280000000000000) * (u ^ 4 * (1 - u) ^ 2 * (w ^ 1 * (1 - w) ^ 3)) + (7429432803009039833 / 160000000000000000) * (u ^ 4 * (1 - u) ^ 2 * (w ^ 2 * (1 - w) ^ 2)) + (1929687330029325059 / 160000000000000000) * (u ^ 4 * (1 - u) ^ 2 * (w ^ 3 * (1 - w) ^ 1)) + (26707856025858711 / 64000000000000000) * (u ^ 4 * (1 - u) ^ 2 * (w ^ 4 * (1 - w) ^ 0)) + (3233309680378590147 / 640000000000000000) * (u ^ 5 * (1 - u) ^ 1 * (w ^ 0 * (1 - w) ^ 4)) + (2363966596305824289 / 160000000000000000) * (u ^ 5 * (1 - u) ^ 1 * (w ^ 1 * (1 - w) ^ 3)) + (936558457336283833 / 64000000000000000) * (u ^ 5 * (1 - u) ^ 1 * (w ^ 2 * (1 - w) ^ 2)) + (675578348396888469 / 160000000000000000) * (u ^ 5 * (1 - u) ^ 1 * (w ^ 3 * (1 - w) ^ 1)) + (148274124549770251 / 640000000000000000) * (u ^ 5 * (1 - u) ^ 1 * (w ^ 4 * (1 - w) ^ 0)) + (12844446648157891 / 20000000000000000) * (u ^ 6 * (1 - u) ^ 0 * (w ^ 0 * (1 - w) ^ 4)) + (59735334260453413 / 32000000000000000) * (u ^ 6 * (1 - u) ^ 0 * (w ^ 1 * (1 - w) ^ 3)) + (14893018253999281 / 8000000000000000) * (u ^ 6 * (1 - u) ^ 0 * (w ^ 2 * (1 - w) ^ 2)) + (95675797096860429 / 160000000000000000) * (u ^ 6 * (1 - u) ^ 0 * (w ^ 3 * (1 - w) ^ 1)) + (3901969595680921 / 80000000000000000) * (u ^ 6 * (1 - u) ^ 0 * (w ^ 4 * (1 - w) ^ 0))); [bern|] end.
  field.
Qed.
Lemma fs_lo u w : 0 <= u <= 1 -> 0 <= w <= 1 -> 0 <= fs_poly (u / 4) ((1 - 2 * (u / 4)) * (2 * w - 1)) + 1.
Proof.
  intros Hu Hw. unfold fs_poly.
  match goal with |- 0 <= ?e => replace e with (2 * (u ^ 0 * (1 - u) ^ 6 * (w ^ 1 * (1 - w) ^ 3)) + 6 * (u ^ 0 * (1 - u) ^ 6 * (w ^ 2 * (1 - w) ^ 2)) + 6 * (u ^ 0 * (1 - u) ^ 6 * (w ^ 3 * (1 - w) ^ 1)) + 2 * (u ^ 0 * (1 - u) ^ 6 * (w ^ 4 * (1 - w) ^ 0)) + (30688218240518503 / 20000000000000000) * (u ^ 1 * (1 - u) ^ 5 * (w ^ 0 * (1 - w) ^ 4)) + (333940082211460577 / 20000000000000000) * (u ^ 1 * (1 - u) ^ 5 * (w ^ 1 * (1 - w) ^ 3)) + (796877475153494137 / 20000000000000000) * (u ^ 1 * (1 - u) ^ 5 * (w ^ 2 * (1 - w) ^ 2)) + (159866371960854351 / 4000000000000000) * (u ^ 1 * (1 - u) ^ 5 * (w ^ 3 * (1 - w) ^ 1)) + (11814524690063769 / 1000000000000000) * (u ^ 1 * (1 - u) ^ 5 * (w ^ 4 * (1 - w) ^ 0)) + (1182864069381456533 / 160000000000000000) * (u ^ 2 * (1 - u) ^ 4 * (w ^ 0 * (1 - w) ^ 4)) + (523717896169260451 / 10000000000000000) * (u ^ 2 * (1 - u) ^ 4 * (w ^ 1 * (1 - w) ^ 3)) + (1780153432307854771 / 16000000000000000) * (u ^ 2 * (1 - u) ^ 4 * (w ^ 2 * (1 - w) ^ 2)) + (130304701347541531 / 1250000000000000) * (u ^ 2 * (1 - u) ^ 4 * (w ^ 3 * (1 - w) ^ 1)) + (4738359096686640413 / 160000000000000000) * (u ^ 2 * (1 - u) ^ 4 * (w ^ 4 * (1 - w) ^ 0)) + (2301621411827643351 / 160000000000000000) * (u ^ 3 * (1 - u) ^ 3 * (w ^ 0 * (1 - w) ^ 4)) + (6703581358729115607 / 80000000000000000) * (u ^ 3 * (1 - u) ^ 3 * (w ^ 1 * (1 - w) ^ 3)) + (6548219330367500399 / 40000000000000000) * (u ^ 3 * (1 - u) ^ 3 * (w ^ 2 * (1 - w) ^ 2)) + (11349861116205014837 / 80000000000000000) * (u ^ 3 * (1 - u) ^ 3 * (w ^ 3 * (1 - w) ^ 1)) + (50633920551086601 / 1280000000000000) * (u ^ 3 * (1 - u) ^ 3 * (w ^ 4 * (1 - w) ^ 0)) + (4519962541465993249 / 320000000000000000) * (u ^ 4 * (1 - u) ^ 2 * (w ^ 0 * (1 - w) ^ 4)) + (93669975954800053 / 1280000000000000) * (u ^ 4 * (1 - u) ^ 2 * (w ^ 1 * (1 - w) ^ 3)) + (21370567196990960167 / 160000000000000000) * (u ^ 4 * (1 - u) ^ 2 * (w ^ 2 * (1 - w) ^ 2)) + (17270312669970674941 / 160000000000000000) * (u ^ 4 * (1 - u) ^ 2 * (w ^ 3 * (1 - w) ^ 1)) + (1893292143974141289 / 64000000000000000) * (u ^ 4 * (1 - u) ^ 2 * (w ^ 4 * (1 - w) ^ 0)) + (4446690319621409853 / 640000000000000000) * (u ^ 5 * (1 - u) ^ 1 * (w ^ 0 * (1 - w) ^ 4)) + (5316033403694175711 / 160000000000000000) * (u ^ 5 * (1 - u) ^ 1 * (w ^ 1 * (1 - w) ^ 3)) + (3671441542663716167 / 64000000000000000) * (u ^ 5 * (1 - u) ^ 1 * (w ^ 2 * (1 - w) ^ 2)) + (7004421651603111531 / 160000000000000000) * (u ^ 5 * (1 - u) ^ 1 * (w ^ 3 * (1 - w) ^ 1)) + (7531725875450229749 / 640000000000000000) * (u ^ 5 * (1 - u) ^ 1 * (w ^ 4 * (1 - w) ^ 0)) + (27155553351842109 / 20000000000000000) * (u ^ 6 * (1 - u) ^ 0 * (w ^ 0 * (1 - w) ^ 4)) + (196264665739546587 / 32000000000000000) * (u ^ 6 * (1 - u) ^ 0 * (w ^ 1 * (1 - w) ^ 3)) + (81106981746000719 / 8000000000000000) * (u ^ 6 * (1 - u) ^ 0 * (w ^ 2 * (1 - w) ^ 2)) + (1184324202903139571 / 160000000000000000) * (u ^ 6 * (1 - u) ^ 0 * (w ^ 3 * (1 - w) ^ 1)) + (156098030404319079 / 80000000000000000) * (u ^ 6 * (1 - u) ^ 0 * (w ^ 4 * (1 - w) ^ 0))); [bern|] end.
  field.
Qed.
Lemma er_num_lo u w : 0 <= u <= 1 -> 0 <= w <= 1 -> 0 <= er_num (u / 4) (2 * w - 1).
Proof.
  intros Hu Hw. unfold er_num.
  match goal with |- 0 <= ?e => replace e with ((561440855448919436197483418835624039 / 40000000000000000000000000000000000000) * (u ^ 1 * (1 - u) ^ 5 * (w ^ 0 * (1 - w) ^ 1)) + (558048541078282103802516581164375961 / 40000000000000000000000000000000000000) * (u ^ 1 * (1 - u) ^ 5 * (w ^ 1 * (1 - w) ^ 0)) + (908956098155921807823221156160814709 / 8000000000000000000000000000000000000) * (u ^ 2 * (1 - u) ^ 4 * (w ^ 0 * (1 - w) ^ 1)) + (791484374682792932176778843839185291 / 8000000000000000000000000000000000000) * (u ^ 2 * (1 - u) ^ 4 * (w ^ 1 * (1 - w) ^ 0)) + (4968603531169033257584042658528617181 / 16000000000000000000000000000000000000) * (u ^ 3 * (1 - u) ^ 3 * (w ^ 0 * (1 - w) ^ 1)) + (3676626331463262902415957341471382819 / 16000000000000000000000000000000000000) * (u ^ 3 * (1 - u) ^ 3 * (w ^ 1 * (1 - w) ^ 0)) + (6054014111478577058784012907973688341 / 16000000000000000000000000000000000000) * (u ^ 4 * (1 - u) ^ 2 * (w ^ 0 * (1 - w) ^ 1)) + (4373398794683939701215987092026311659 / 16000000000000000000000000000000000000) * (u ^ 4 * (1 - u) ^ 2 * (w ^ 1 * (1 - w) ^ 0)) + (3571750688634018852394162279855738483 / 16000000000000000000000000000000000000) * (u ^ 5 * (1 - u) ^ 1 * (w ^ 0 * (1 - w) ^ 1)) + (2711930525449441027605837720144261517 / 16000000000000000000000000000000000000) * (u ^ 5 * (1 - u) ^ 1 * (w ^ 1 * (1 - w) ^ 0)) + (1980259473076180526004907137481773489 / 40000000000000000000000000000000000000) * (u ^ 6 * (1 - u) ^ 0 * (w ^ 0 * (1 - w) ^ 1)) + (1890772985640545513995092862518226511 / 40000000000000000000000000000000000000) * (u ^ 6 * (1 - u) ^ 0 * (w ^ 1 * (1 - w) ^ 0))); [bern|] end.
  field.
Qed.
Lemma er_den_lo u w : 0 <= u <= 1 -> 0 <= w <= 1 -> 0 <= er_den (u / 4) (2 * w - 1) - 1 / 10.
Proof.
  intros Hu Hw. unfold er_den.
  match goal with |- 0 <= ?e => replace e with ((15714403054720589 / 10000000000000000) * (u ^ 0 * (1 - u) ^ 2 * (w ^ 0 * (1 - w) ^ 1)) + (2285596945279411 / 10000000000000000) * (u ^ 0 * (1 - u) ^ 2 * (w ^ 1 * (1 - w) ^ 0)) + (7023607693773381 / 2000000000000000) * (u ^ 1 * (1 - u) ^ 1 * (w ^ 0 * (1 - w) ^ 1)) + (176392306226619 / 2000000000000000) * (u ^ 1 * (1 - u) ^ 1 * (w ^ 1 * (1 - w) ^ 0)) + (118705702238745473 / 80000000000000000) * (u ^ 2 * (1 - u) ^ 0 * (w ^ 0 * (1 - w) ^ 1)) + (25294297761254527 / 80000000000000000) * (u ^ 2 * (1 - u) ^ 0 * (w ^ 1 * (1 - w) ^ 0))); [bern|] end.
  field.
Qed.
Lemma er_ratio u w : 0 <= u <= 1 -> 0 <= w <= 1 -> 0 <= (13 / 100) * er_den (u / 4) (2 * w - 1) - er_num (u / 4) (2 * w - 1).
Proof.
  intros Hu Hw. unfold er_den, er_num.
  match goal with |- 0 <= ?e => replace e with ((217287239711367657 / 1000000000000000000) * (u ^ 0 * (1 - u) ^ 6 * (w ^ 0 * (1 - w) ^ 1)) + (42712760288632343 / 1000000000000000000) * (u ^ 0 * (1 - u) ^ 6 * (w ^ 1 * (1 - w) ^ 0)) + (53505897502180696283802516581164375961 / 40000000000000000000000000000000000000) * (u ^ 1 * (1 - u) ^ 5 * (w ^ 0 * (1 - w) ^ 1)) + (7774613101292102176197483418835624039 / 40000000000000000000000000000000000000) * (u ^ 1 * (1 - u) ^ 5 * (w ^ 1 * (1 - w) ^ 0)) + (26609109540142049357176778843839185291 / 8000000000000000000000000000000000000) * (u ^ 2 * (1 - u) ^ 4 * (w ^ 0 * (1 - w) ^ 1)) + (2890449987019235902823221156160814709 / 8000000000000000000000000000000000000) * (u ^ 2 * (1 - u) ^ 4 * (w ^ 1 * (1 - w) ^ 0)) + (68438484852333923422415957341471382819 / 16000000000000000000000000000000000000) * (u ^ 3 * (1 - u) ^ 3 * (w ^ 0 * (1 - w) ^ 1)) + (6116285285033780417584042658528617181 / 16000000000000000000000000000000000000) * (u ^ 3 * (1 - u) ^ 3 * (w ^ 1 * (1 - w) ^ 0)) + (48070879279244864201215987092026311659 / 16000000000000000000000000000000000000) * (u ^ 4 * (1 - u) ^ 2 * (w ^ 0 * (1 - w) ^ 1)) + (3901707814592619038784012907973688341 / 16000000000000000000000000000000000000) * (u ^ 4 * (1 - u) ^ 2 * (w ^ 1 * (1 - w) ^ 0)) + (17326194345719826579605837720144261517 / 16000000000000000000000000000000000000) * (u ^ 5 * (1 - u) ^ 1 * (w ^ 0 * (1 - w) ^ 1)) + (1350124440196713540394162279855738483 / 16000000000000000000000000000000000000) * (u ^ 5 * (1 - u) ^ 1 * (w ^ 1 * (1 - w) ^ 0)) + (6255611172442275218995092862518226511 / 40000000000000000000000000000000000000) * (u ^ 6 * (1 - u) ^ 0 * (w ^ 0 * (1 - w) ^ 1)) + (273356368840998741004907137481773489 / 40000000000000000000000000000000000000) * (u ^ 6 * (1 - u) ^ 0 * (w ^ 1 * (1 - w) ^ 0))); [bern|] end.
  field.
Qed.
