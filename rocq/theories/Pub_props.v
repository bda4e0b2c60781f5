(** Property C57: the closed-form ingredients of IMRPhenomD are the published ones (Khan et al. 2016, appendix B; Husa et al. 2016). *)
From Coq Require Import Reals Lra.
From Coquelicot Require Import Coquelicot.
From Verif Require Import Base Conv_model Conv_props Wave_model Wave_props Tf2_model Tf2_props Tf2b_props Phd_fits Phd_model.
Local Open Scope R_scope.

(** ** the post-Newtonian amplitude: A_2 .. A_6 of eqs. B14-B20, the i-th multiplying (pi Mf)^(i/3) *)
Section Amp.
Variables (eta delta chis chia : R).
Definition pubA2 : R := - 323 / 224 + 451 / 168 * eta.
Definition pubA3 : R := 27 / 8 * delta * chia + (27 / 8 - 11 / 6 * eta) * chis.
Definition pubA4 : R := - 27312085 / 8128512 - 1975055 / 338688 * eta + 105271 / 24192 * eta ^ 2
  + (- 81 / 32 + 8 * eta) * chia ^ 2 - 81 / 16 * delta * chia * chis + (- 81 / 32 + 17 / 8 * eta) * chis ^ 2.
Definition pubA5 : R := - 85 / 64 * PI + 85 / 16 * PI * eta
  + delta * (285197 / 16128 - 1579 / 4032 * eta) * chia + (285197 / 16128 - 15317 / 672 * eta - 2227 / 1008 * eta ^ 2) * chis.
Definition pubA6 : R := - 177520268561 / 8583708672 + (545384828789 / 5007163392 - 205 / 48 * PI ^ 2) * eta
  - 3248849057 / 178827264 * eta ^ 2 + 34473079 / 6386688 * eta ^ 3
  + (1614569 / 64512 - 1873643 / 16128 * eta + 2167 / 42 * eta ^ 2) * chia ^ 2
  + (31 / 12 * PI - 7 / 3 * PI * eta) * chis
  + (1614569 / 64512 - 61391 / 1344 * eta + 57451 / 4032 * eta ^ 2) * chis ^ 2
  + delta * chia * (31 / 12 * PI + (1614569 / 32256 - 165961 / 2688 * eta) * chis).
End Amp.
Theorem pd_pn_amplitude eta delta xi chi1 chi2 :
  let chis := pub_chis chi1 chi2 in let chia := pub_chia chi1 chi2 in
  let pre f := f eta (eta * eta) delta xi chi1 chi2 (chi1 * chi1) (chi2 * chi2) : R in
  pre prefactors_two_thirds = pubA2 eta * Rpower PI (2 / 3)
  /\ pre prefactors_one = pubA3 eta delta chis chia * PI
  /\ pre prefactors_four_thirds = pubA4 eta delta chis chia * Rpower PI (4 / 3)
  /\ pre prefactors_five_thirds = pubA5 eta delta chis chia * Rpower PI (5 / 3)
  /\ pre prefactors_two = pubA6 eta delta chis chia * PI ^ 2.
Proof.
  cbv zeta. unfold prefactors_two_thirds, prefactors_one, prefactors_four_thirds, prefactors_five_thirds, prefactors_two, pubA2, pubA3, pubA4, pubA5, pubA6, pub_chis, pub_chia.
  cbv zeta. repeat split; field.
Qed.

(** the inspiral amplitude is that series plus the three fitted terms *)
Theorem pd_inspiral_amplitude p Mf : 0 < Mf -> d_chi12 p = d_chi1 p * d_chi1 p -> d_chi22 p = d_chi2 p * d_chi2 p ->
  let eta := d_eta p in let delta := d_Seta p in let xi := d_xi p in
  let chis := pub_chis (d_chi1 p) (d_chi2 p) in let chia := pub_chia (d_chi1 p) (d_chi2 p) in
  let v := Rpower (PI * Mf) (1 / 3) in
  fst (ins_amp p Mf) = 1 + pubA2 eta * v ^ 2 + pubA3 eta delta chis chia * v ^ 3 + pubA4 eta delta chis chia * v ^ 4
    + pubA5 eta delta chis chia * v ^ 5 + pubA6 eta delta chis chia * v ^ 6
    + rho1_fun eta (eta * eta) xi * Rpower Mf (7 / 3) + rho2_fun eta (eta * eta) xi * Rpower Mf (8 / 3) + rho3_fun eta (eta * eta) xi * Rpower Mf 3.
Proof.
  intros H E1 E2. cbv zeta. pose proof PI_RGT_0 as HP.
  destruct (pd_pn_amplitude (d_eta p) (d_Seta p) (d_xi p) (d_chi1 p) (d_chi2 p)) as (A & B & D & E & F).
  unfold ins_amp. cbv zeta. cbn [fst]. rewrite E1, E2, A, B, D, E, F.
  unfold prefactors_seven_thirds, prefactors_eight_thirds, prefactors_three. cbv zeta.
  rewrite <- (Rpower_mult_distr PI Mf (1 / 3)) by assumption.
  set (P := Rpower PI (1 / 3)). set (t := Rpower Mf (1 / 3)).
  assert (EP : forall (n : nat) (z : R), z * 3 = INR n -> Rpower PI z = P ^ n).
  { intros n z Hz. unfold P. rewrite <- Rpower_pow by apply Rpower_pos. rewrite Rpower_mult. f_equal. lra. }
  assert (Et : forall (n : nat) (z : R), z * 3 = INR n -> Rpower Mf z = t ^ n).
  { intros n z Hz. unfold t. rewrite <- Rpower_pow by apply Rpower_pos. rewrite Rpower_mult. f_equal. lra. }
  assert (P2 : Rpower PI (2 / 3) = P ^ 2) by (apply EP; cbn [INR]; lra).
  assert (P4 : Rpower PI (4 / 3) = P ^ 4) by (apply EP; cbn [INR]; lra).
  assert (P5 : Rpower PI (5 / 3) = P ^ 5) by (apply EP; cbn [INR]; lra).
  assert (P3 : PI = P ^ 3) by (rewrite <- (EP 3%nat 1) by (cbn [INR]; lra); rewrite Rpower_1; auto).
  assert (T7 : Rpower Mf (7 / 3) = t ^ 7) by (apply Et; cbn [INR]; lra).
  assert (T8 : Rpower Mf (8 / 3) = t ^ 8) by (apply Et; cbn [INR]; lra).
  assert (T9 : Rpower Mf 3 = t ^ 9) by (apply Et; cbn [INR]; lra).
  assert (T3 : Mf = t ^ 3) by (rewrite <- (Et 3%nat 1) by (cbn [INR]; lra); rewrite Rpower_1; auto).
  clear EP Et.
  rewrite P2, P4, P5, T7, T8, T9.
  clearbody P t.
  generalize (pubA2 (d_eta p)) (pubA3 (d_eta p) (d_Seta p) (pub_chis (d_chi1 p) (d_chi2 p)) (pub_chia (d_chi1 p) (d_chi2 p)))
    (pubA4 (d_eta p) (d_Seta p) (pub_chis (d_chi1 p) (d_chi2 p)) (pub_chia (d_chi1 p) (d_chi2 p))) (pubA5 (d_eta p) (d_Seta p) (pub_chis (d_chi1 p) (d_chi2 p)) (pub_chia (d_chi1 p) (d_chi2 p)))
    (pubA6 (d_eta p) (d_Seta p) (pub_chis (d_chi1 p) (d_chi2 p)) (pub_chia (d_chi1 p) (d_chi2 p))).
  intros a2 a3 a4 a5 a6. rewrite P3, T3. ring.
Qed.

(** ** the phenomenological coefficients: Khan et al. Table V.
    Each is  l00 + l10 eta + sum_(j=1..3) (l0j + l1j eta + l2j eta^2) (chi_PN - 1)^j,  and the table gives six digits. *)
Definition lam_poly (L : list R) (eta x : R) : R :=
  match L with
  | [l00; l10; l01; l11; l21; l02; l12; l22; l03; l13; l23] =>
      l00 + l10 * eta + (l01 + l11 * eta + l21 * eta ^ 2) * x + (l02 + l12 * eta + l22 * eta ^ 2) * x ^ 2 + (l03 + l13 * eta + l23 * eta ^ 2) * x ^ 3
  | _ => 0
  end.
(** m times ten to the e *)
Definition dec (t : Z * Z) : R := let (m, e) := t in if (0 <=? e)%Z then IZR (m * 10 ^ e) else IZR m / IZR (10 ^ (- e)).
Definition agrees (digits : R) (l : R) (t : Z * Z) : Prop := Rabs (l - dec t) <= digits * Rabs (dec t).
Definition published (f : R -> R -> R -> R) (T : list (Z * Z)) : Prop :=
  exists L, List.length L = 11%nat /\ Forall2 (agrees (5 / 1000000)) L T /\ forall eta x, f eta (eta * eta) x = lam_poly L eta x.
Ltac dec_tac := unfold agrees, dec; match goal with |- context [if ?b then _ else _] => let v := eval vm_compute in b in change b with v end; cbv iota;
  match goal with |- context [IZR (10 ^ ?e)] => let v := eval vm_compute in (10 ^ e)%Z in change (10 ^ e)%Z with v | |- context [IZR (?m * 10 ^ ?e)] => let v := eval vm_compute in (m * 10 ^ e)%Z in change (m * 10 ^ e)%Z with v end;
  unfold Rabs; repeat match goal with |- context [Rcase_abs ?x] => destruct (Rcase_abs x) end; lra.
Ltac pub_tac := split; [reflexivity|split; [repeat constructor; dec_tac|intros eta x; cbn [lam_poly]; field]].
Lemma sigma1Fit_published : published sigma1Fit [(209655, -2)%Z; (146375, -2)%Z; (131255, -2)%Z; (183073, -1)%Z; (-435341, -1)%Z; (-833289, -3)%Z; (320473, -1)%Z; (-108609, 0)%Z; (452251, -3)%Z; (835344, -2)%Z; (-445313, -1)%Z].
Proof. exists [2096551999295543 / 1000000000000; 14637493168261553 / 10000000000000; 6562746643049261 / 5000000000000; 18307330017082117 / 1000000000000; - (435341440746107 / 10000000000); - (4166444771755557 / 5000000000000); 3204731997183187 / 100000000000; - (10860945037520859 / 100000000000); 11306284099528051 / 25000000000000; 4176719773195857 / 500000000000; - (222656625018661 / 5000000000)]. unfold sigma1Fit. pub_tac. Qed.
Lemma sigma2Fit_published : published sigma2Fit [(-101141, -1)%Z; (-446310, -1)%Z; (-654131, -2)%Z; (-266959, 0)%Z; (686328, 0)%Z; (340564, -2)%Z; (-437508, 0)%Z; (163182, 1)%Z; (-746265, -2)%Z; (-114585, 0)%Z; (674402, 0)%Z].
Proof. exists [- (2528514118155289 / 250000000000); - (892620221891637 / 20000000000); - (3270654380834361 / 500000000000); - (1668495213706719 / 6250000000); 214477600916187 / 312500000; 6811274437535937 / 2000000000000; - (875015441641803 / 2000000000); 16318171307344697 / 10000000000; - (3731324281503823 / 500000000000); - (11458525177153319 / 100000000000); 1686006172274669 / 2500000000]. unfold sigma2Fit. pub_tac. Qed.
Lemma sigma3Fit_published : published sigma3Fit [(229337, -1)%Z; (230960, 0)%Z; (149611, -1)%Z; (119402, 1)%Z; (-310422, 1)%Z; (-303817, -2)%Z; (187203, 1)%Z; (-730915, 1)%Z; (427382, -1)%Z; (467502, 0)%Z; (-306485, 1)%Z].
Proof. exists [22933658273436497 / 1000000000000; 11548000407489753 / 50000000000; 2992216794836739 / 200000000000; 5970090671159071 / 5000000000; - (7760559923263191 / 2500000000); - (3038166617199259 / 1000000000000); 2340040356136699 / 1250000000; - (7309145012085539 / 1000000000); 4273822871475411 / 100000000000; 467502018616601 / 1000000000; - (3064853498512499 / 1000000000)]. unfold sigma3Fit. pub_tac. Qed.
Lemma sigma4Fit_published : published sigma4Fit [(-146217, -1)%Z; (-377813, 0)%Z; (-960868, -2)%Z; (-171089, 1)%Z; (433292, 1)%Z; (-223667, -1)%Z; (-250197, 1)%Z; (102745, 2)%Z; (-853603, -1)%Z; (-570025, 0)%Z; (439684, 1)%Z].
Proof. exists [- (1462171522218357 / 100000000000); - (118066518105847 / 312500000); - (4804341315754863 / 500000000000); - (2138615657151757 / 1250000000); 4332924601416521 / 1000000000; - (698958851945829 / 31250000000); - (25019716386377467 / 10000000000); 5137247951129771 / 500000000; - (4268015039517123 / 50000000000); - (1140050688347503 / 2000000000); 4396844346849777 / 1000000000]. unfold sigma4Fit. pub_tac. Qed.
Lemma gamma1_fun_published : published gamma1_fun [(692740, -8)%Z; (302047, -7)%Z; (630802, -8)%Z; (-120741, -6)%Z; (262716, -6)%Z; (341518, -8)%Z; (-107793, -6)%Z; (270990, -6)%Z; (737419, -9)%Z; (-274962, -7)%Z; (733151, -7)%Z].
Proof. exists [6927402739328343 / 1000000000000000000; 3020474290328911 / 100000000000000000; 6308024337706171 / 1000000000000000000; - (6037065330565569 / 50000000000000000); 6567899726445331 / 25000000000000000; 17075886823599397 / 5000000000000000000; - (5389669305594187 / 50000000000000000); 27098966966891747 / 100000000000000000; 7374185938559283 / 10000000000000000000; - (2749621038376281 / 100000000000000000); 366575394567851 / 5000000000000000]. unfold gamma1_fun. pub_tac. Qed.
Lemma gamma2_fun_published : published gamma2_fun [(101034, -5)%Z; (899312, -9)%Z; (283949, -6)%Z; (-404975, -5)%Z; (132078, -4)%Z; (103963, -6)%Z; (-702506, -5)%Z; (247849, -4)%Z; (309320, -7)%Z; (-269240, -5)%Z; (960937, -5)%Z].
Proof. exists [1010344404799477 / 1000000000000000; 2248280501808637 / 2500000000000000000; 283949116804459 / 1000000000000000; - (809950592591601 / 200000000000000); 6603914086332683 / 500000000000000; 5198139243402713 / 50000000000000000; - (7025059158961947 / 1000000000000000); 991395694805219 / 40000000000000; 773300618901473 / 25000000000000000; - (26924023896851663 / 10000000000000000); 9609374464684983 / 1000000000000000]. unfold gamma2_fun. pub_tac. Qed.
Lemma gamma3_fun_published : published gamma3_fun [(130816, -5)%Z; (-553773, -8)%Z; (-678292, -7)%Z; (-668983, -6)%Z; (340315, -5)%Z; (-529658, -7)%Z; (-992379, -6)%Z; (482068, -5)%Z; (-613414, -8)%Z; (-384293, -6)%Z; (175618, -5)%Z].
Proof. exists [6540807803518053 / 5000000000000000; - (2768864847403839 / 500000000000000000); - (6782917938621007 / 100000000000000000); - (6689834970767117 / 10000000000000000); 3403147966134083 / 1000000000000000; - (2648288687205933 / 50000000000000000); - (4961896601555681 / 5000000000000000); 4820681208409587 / 1000000000000000; - (6134139870393713 / 1000000000000000000); - (7685850661739273 / 20000000000000000); 274402412843531 / 156250000000000]. unfold gamma3_fun. pub_tac. Qed.
Lemma beta1Fit_published : published beta1Fit [(978975, -4)%Z; (-426597, -4)%Z; (153484, -3)%Z; (-141706, -2)%Z; (275286, -2)%Z; (138741, -3)%Z; (-143366, -2)%Z; (285774, -2)%Z; (410251, -4)%Z; (-423681, -3)%Z; (850359, -3)%Z].
Proof. exists [9789747327985583 / 100000000000000; - (5332466359686153 / 125000000000000); 15348421037904913 / 100000000000000; - (7085310380384477 / 5000000000000); 27528614143665027 / 10000000000000; 1387406469558649 / 10000000000000; - (14336585075135881 / 10000000000000); 14288709476215379 / 5000000000000; 20512554733688063 / 500000000000000; - (423680737974639 / 1000000000000); 8503594335657173 / 10000000000000]. unfold beta1Fit. pub_tac. Qed.
Lemma beta2Fit_published : published beta2Fit [(-328270, -5)%Z; (-905138, -5)%Z; (-124154, -4)%Z; (554716, -4)%Z; (-106051, -3)%Z; (-119530, -4)%Z; (768070, -4)%Z; (-155332, -3)%Z; (-341293, -5)%Z; (255724, -4)%Z; (-544080, -4)%Z].
Proof. exists [- (1641350979379767 / 500000000000000); - (4525692234122933 / 500000000000000); - (6207724871129021 / 500000000000000); 554716447709787 / 10000000000000; - (2121021987793267 / 20000000000000); - (5976522276845329 / 500000000000000); 3840352309182709 / 50000000000000; - (7766586474049197 / 50000000000000); - (34129261592393263 / 10000000000000000); 3196547196244067 / 125000000000000; - (10881607341548093 / 200000000000000)]. unfold beta2Fit. pub_tac. Qed.
Lemma beta3Fit_published : published beta3Fit [(-251564, -10)%Z; (197503, -10)%Z; (-183707, -10)%Z; (218863, -10)%Z; (825024, -10)%Z; (715737, -11)%Z; (-557800, -10)%Z; (191421, -9)%Z; (544717, -11)%Z; (-322061, -10)%Z; (797402, -10)%Z].
Proof. exists [- (5031285963759913 / 200000000000000000000); 19750256942201327 / 1000000000000000000000; - (3674134293859183 / 200000000000000000000); 21886317041311973 / 1000000000000000000000; 8250240316860033 / 100000000000000000000; 1789342812641677 / 250000000000000000000; - (11156000022454137 / 200000000000000000000); 9571041442036089 / 50000000000000000000; 5447166261464217 / 1000000000000000000000; - (1610305047510991 / 50000000000000000000); 7974016714984341 / 100000000000000000000]. unfold beta3Fit. pub_tac. Qed.
Lemma alpha1Fit_published : published alpha1Fit [(433151, -4)%Z; (638633, -3)%Z; (-328577, -4)%Z; (241589, -2)%Z; (-576688, -2)%Z; (-618546, -4)%Z; (295397, -2)%Z; (-898629, -2)%Z; (-215714, -4)%Z; (981216, -3)%Z; (-323957, -2)%Z].
Proof. exists [1082878677423837 / 25000000000000; 6386332679188081 / 10000000000000; - (3285768747216059 / 100000000000000); 4831787653874063 / 2000000000000; - (5766875169379177 / 1000000000000); - (6185459307173841 / 100000000000000); 738491940614987 / 250000000000; - (898629057591497 / 100000000000); - (5392858944940511 / 250000000000000); 2453039556168357 / 2500000000000; - (16197832447965143 / 5000000000000)]. unfold alpha1Fit. pub_tac. Qed.
Lemma alpha2Fit_published : published alpha2Fit [(-702021, -7)%Z; (-162698, -6)%Z; (-187251, -6)%Z; (113831, -5)%Z; (-283342, -5)%Z; (-171380, -6)%Z; (171975, -5)%Z; (-453972, -5)%Z; (-499834, -7)%Z; (606207, -6)%Z; (-168277, -5)%Z].
Proof. exists [- (7020209449091723 / 100000000000000000); - (4067449612671771 / 25000000000000000); - (1872514685185499 / 10000000000000000); 227662730089989 / 200000000000000; - (14167098152215023 / 5000000000000000); - (17137955686840617 / 100000000000000000); 17197549338119527 / 10000000000000000; - (567464643532659 / 125000000000000); - (9996687471509741 / 200000000000000000); 6062072055948309 / 10000000000000000; - (841384808322273 / 500000000000000)]. unfold alpha2Fit. pub_tac. Qed.
Lemma alpha3Fit_published : published alpha3Fit [(959881, -5)%Z; (-397054, -3)%Z; (162021, -4)%Z; (-157483, -2)%Z; (360034, -2)%Z; (270924, -4)%Z; (-178648, -2)%Z; (515292, -2)%Z; (111757, -4)%Z; (-577800, -3)%Z; (180873, -2)%Z].
Proof. exists [95988072383479 / 10000000000000; - (39705438595557433 / 100000000000000); 16202126189517813 / 1000000000000000; - (15748286986717037 / 10000000000000); 36003410843831093 / 10000000000000; 27092429659075467 / 1000000000000000; - (1786482357315139 / 1000000000000); 5152919378666511 / 1000000000000; 2235142026006779 / 200000000000000; - (5777999423177481 / 10000000000000); 1808730762932043 / 1000000000000]. unfold alpha3Fit. pub_tac. Qed.
Lemma alpha4Fit_published : published alpha4Fit [(-298949, -7)%Z; (140221, -5)%Z; (-735605, -7)%Z; (833701, -6)%Z; (224001, -6)%Z; (-552029, -7)%Z; (566719, -6)%Z; (718693, -6)%Z; (-155074, -7)%Z; (157503, -6)%Z; (210768, -6)%Z].
Proof. exists [- (2989487384493607 / 100000000000000000); 7011053224291869 / 5000000000000000; - (3678024734316923 / 50000000000000000); 8337006542278661 / 10000000000000000; 2240008282397391 / 10000000000000000; - (27601435000588613 / 500000000000000000); 2833593171803289 / 5000000000000000; 7186931973380503 / 10000000000000000; - (15507437354325743 / 1000000000000000000); 15750322779277187 / 100000000000000000; 5269203928794057 / 25000000000000000]. unfold alpha4Fit. pub_tac. Qed.
Lemma alpha5Fit_published : published alpha5Fit [(997441, -6)%Z; (-788445, -8)%Z; (-590469, -7)%Z; (139587, -5)%Z; (-451663, -5)%Z; (-558534, -7)%Z; (175166, -5)%Z; (-599021, -5)%Z; (-179453, -7)%Z; (596510, -6)%Z; (-206089, -5)%Z].
Proof. exists [9974408278363099 / 10000000000000000; - (7884449714907203 / 1000000000000000000); - (11809380239118207 / 200000000000000000); 1744839049595511 / 1250000000000000; - (1129157900419069 / 250000000000000); - (1396335784217423 / 25000000000000000); 17516580039343603 / 10000000000000000; - (1497552241336951 / 250000000000000); - (3589067304432239 / 200000000000000000); 745637224353249 / 1250000000000000; - (5152219841992951 / 2500000000000000)]. unfold alpha5Fit. pub_tac. Qed.
Lemma rho1_fun_published : published rho1_fun [(393190, -2)%Z; (-173958, -1)%Z; (313238, -2)%Z; (343966, 0)%Z; (-121626, 1)%Z; (-706980, -1)%Z; (138391, 1)%Z; (-396628, 1)%Z; (-600175, -1)%Z; (803515, 0)%Z; (-209171, 1)%Z].
Proof. exists [4914872487149587 / 1250000000000; - (3479151741362561 / 200000000000); 626475109179767 / 200000000000; 34396586092361377 / 100000000000; - (12162565819981997 / 10000000000); - (7069800600428853 / 100000000000); 276781435571941 / 200000000; - (19831380945489723 / 5000000000); - (1500438105913149 / 25000000000); 1607030236365147 / 2000000000; - (1045855182970829 / 500000000)]. unfold rho1_fun. pub_tac. Qed.
Lemma rho2_fun_published : published rho2_fun [(-401055, -1)%Z; (112253, 0)%Z; (235617, -1)%Z; (-347618, 1)%Z; (113759, 2)%Z; (754313, 0)%Z; (-130848, 2)%Z; (364446, 2)%Z; (596227, 0)%Z; (-742779, 1)%Z; (189290, 2)%Z].
Proof. exists [- (4010547653771657 / 100000000000); 1122530169706701 / 10000000000; 2945212008229521 / 125000000000; - (3476180699403351 / 1000000000); 568796835424741 / 50000000; 3771565563583227 / 5000000000; - (327119011156317 / 25000000); 18222292426964067 / 500000000; 18632081639759 / 31250000; - (14855580228712881 / 2000000000); 18928977514040343 / 1000000000]. unfold rho2_fun. pub_tac. Qed.
Lemma rho3_fun_published : published rho3_fun [(832084, -1)%Z; (-191238, 0)%Z; (-210916, 0)%Z; (871798, 1)%Z; (-269149, 2)%Z; (-198898, 1)%Z; (308880, 2)%Z; (-839087, 2)%Z; (-145350, 1)%Z; (170635, 2)%Z; (-427487, 2)%Z].
Proof. exists [8320835471266537 / 100000000000; - (478094316036481 / 2500000000); - (131822653423937 / 625000000); 108974688544071 / 12500000; - (1682183901291847 / 62500000); - (9944903263681361 / 5000000000); 30888029960154563 / 1000000000; - (4195435139628081 / 50000000); - (14535031953446497 / 10000000000); 8531764495411083 / 500000000; - (21374329865560457 / 500000000)]. unfold rho3_fun. pub_tac. Qed.
Lemma AmpIntColFitCoeff_published : published AmpIntColFitCoeff [(814984, -6)%Z; (257476, -5)%Z; (116102, -5)%Z; (-236278, -5)%Z; (677104, -5)%Z; (757078, -6)%Z; (-272569, -5)%Z; (711404, -5)%Z; (176693, -6)%Z; (-797869, -6)%Z; (211624, -5)%Z].
Proof. exists [1629967746101557 / 2000000000000000; 12873776758727329 / 5000000000000000; 5805099017748393 / 5000000000000000; - (23627771785551537 / 10000000000000000); 6771038707057573 / 1000000000000000; 3785391469303417 / 5000000000000000; - (13628448445216237 / 5000000000000000); 14228076079429993 / 2000000000000000; 1766934149293479 / 10000000000000000; - (7978690983168183 / 10000000000000000); 21162391502005153 / 10000000000000000]. unfold AmpIntColFitCoeff. pub_tac. Qed.
(** all nineteen rows of the table *)
Theorem pd_fits_published :
  published sigma1Fit [(209655, -2)%Z; (146375, -2)%Z; (131255, -2)%Z; (183073, -1)%Z; (-435341, -1)%Z; (-833289, -3)%Z; (320473, -1)%Z; (-108609, 0)%Z; (452251, -3)%Z; (835344, -2)%Z; (-445313, -1)%Z]
  /\ published sigma2Fit [(-101141, -1)%Z; (-446310, -1)%Z; (-654131, -2)%Z; (-266959, 0)%Z; (686328, 0)%Z; (340564, -2)%Z; (-437508, 0)%Z; (163182, 1)%Z; (-746265, -2)%Z; (-114585, 0)%Z; (674402, 0)%Z]
  /\ published sigma3Fit [(229337, -1)%Z; (230960, 0)%Z; (149611, -1)%Z; (119402, 1)%Z; (-310422, 1)%Z; (-303817, -2)%Z; (187203, 1)%Z; (-730915, 1)%Z; (427382, -1)%Z; (467502, 0)%Z; (-306485, 1)%Z]
  /\ published sigma4Fit [(-146217, -1)%Z; (-377813, 0)%Z; (-960868, -2)%Z; (-171089, 1)%Z; (433292, 1)%Z; (-223667, -1)%Z; (-250197, 1)%Z; (102745, 2)%Z; (-853603, -1)%Z; (-570025, 0)%Z; (439684, 1)%Z]
  /\ published gamma1_fun [(692740, -8)%Z; (302047, -7)%Z; (630802, -8)%Z; (-120741, -6)%Z; (262716, -6)%Z; (341518, -8)%Z; (-107793, -6)%Z; (270990, -6)%Z; (737419, -9)%Z; (-274962, -7)%Z; (733151, -7)%Z]
  /\ published gamma2_fun [(101034, -5)%Z; (899312, -9)%Z; (283949, -6)%Z; (-404975, -5)%Z; (132078, -4)%Z; (103963, -6)%Z; (-702506, -5)%Z; (247849, -4)%Z; (309320, -7)%Z; (-269240, -5)%Z; (960937, -5)%Z]
  /\ published gamma3_fun [(130816, -5)%Z; (-553773, -8)%Z; (-678292, -7)%Z; (-668983, -6)%Z; (340315, -5)%Z; (-529658, -7)%Z; (-992379, -6)%Z; (482068, -5)%Z; (-613414, -8)%Z; (-384293, -6)%Z; (175618, -5)%Z]
  /\ published beta1Fit [(978975, -4)%Z; (-426597, -4)%Z; (153484, -3)%Z; (-141706, -2)%Z; (275286, -2)%Z; (138741, -3)%Z; (-143366, -2)%Z; (285774, -2)%Z; (410251, -4)%Z; (-423681, -3)%Z; (850359, -3)%Z]
  /\ published beta2Fit [(-328270, -5)%Z; (-905138, -5)%Z; (-124154, -4)%Z; (554716, -4)%Z; (-106051, -3)%Z; (-119530, -4)%Z; (768070, -4)%Z; (-155332, -3)%Z; (-341293, -5)%Z; (255724, -4)%Z; (-544080, -4)%Z]
  /\ published beta3Fit [(-251564, -10)%Z; (197503, -10)%Z; (-183707, -10)%Z; (218863, -10)%Z; (825024, -10)%Z; (715737, -11)%Z; (-557800, -10)%Z; (191421, -9)%Z; (544717, -11)%Z; (-322061, -10)%Z; (797402, -10)%Z]
  /\ published alpha1Fit [(433151, -4)%Z; (638633, -3)%Z; (-328577, -4)%Z; (241589, -2)%Z; (-576688, -2)%Z; (-618546, -4)%Z; (295397, -2)%Z; (-898629, -2)%Z; (-215714, -4)%Z; (981216, -3)%Z; (-323957, -2)%Z]
  /\ published alpha2Fit [(-702021, -7)%Z; (-162698, -6)%Z; (-187251, -6)%Z; (113831, -5)%Z; (-283342, -5)%Z; (-171380, -6)%Z; (171975, -5)%Z; (-453972, -5)%Z; (-499834, -7)%Z; (606207, -6)%Z; (-168277, -5)%Z]
  /\ published alpha3Fit [(959881, -5)%Z; (-397054, -3)%Z; (162021, -4)%Z; (-157483, -2)%Z; (360034, -2)%Z; (270924, -4)%Z; (-178648, -2)%Z; (515292, -2)%Z; (111757, -4)%Z; (-577800, -3)%Z; (180873, -2)%Z]
  /\ published alpha4Fit [(-298949, -7)%Z; (140221, -5)%Z; (-735605, -7)%Z; (833701, -6)%Z; (224001, -6)%Z; (-552029, -7)%Z; (566719, -6)%Z; (718693, -6)%Z; (-155074, -7)%Z; (157503, -6)%Z; (210768, -6)%Z]
  /\ published alpha5Fit [(997441, -6)%Z; (-788445, -8)%Z; (-590469, -7)%Z; (139587, -5)%Z; (-451663, -5)%Z; (-558534, -7)%Z; (175166, -5)%Z; (-599021, -5)%Z; (-179453, -7)%Z; (596510, -6)%Z; (-206089, -5)%Z]
  /\ published rho1_fun [(393190, -2)%Z; (-173958, -1)%Z; (313238, -2)%Z; (343966, 0)%Z; (-121626, 1)%Z; (-706980, -1)%Z; (138391, 1)%Z; (-396628, 1)%Z; (-600175, -1)%Z; (803515, 0)%Z; (-209171, 1)%Z]
  /\ published rho2_fun [(-401055, -1)%Z; (112253, 0)%Z; (235617, -1)%Z; (-347618, 1)%Z; (113759, 2)%Z; (754313, 0)%Z; (-130848, 2)%Z; (364446, 2)%Z; (596227, 0)%Z; (-742779, 1)%Z; (189290, 2)%Z]
  /\ published rho3_fun [(832084, -1)%Z; (-191238, 0)%Z; (-210916, 0)%Z; (871798, 1)%Z; (-269149, 2)%Z; (-198898, 1)%Z; (308880, 2)%Z; (-839087, 2)%Z; (-145350, 1)%Z; (170635, 2)%Z; (-427487, 2)%Z]
  /\ published AmpIntColFitCoeff [(814984, -6)%Z; (257476, -5)%Z; (116102, -5)%Z; (-236278, -5)%Z; (677104, -5)%Z; (757078, -6)%Z; (-272569, -5)%Z; (711404, -5)%Z; (176693, -6)%Z; (-797869, -6)%Z; (211624, -5)%Z].
Proof. exact (conj sigma1Fit_published (conj sigma2Fit_published (conj sigma3Fit_published (conj sigma4Fit_published (conj gamma1_fun_published (conj gamma2_fun_published (conj gamma3_fun_published (conj beta1Fit_published (conj beta2Fit_published (conj beta3Fit_published (conj alpha1Fit_published (conj alpha2Fit_published (conj alpha3Fit_published (conj alpha4Fit_published (conj alpha5Fit_published (conj rho1_fun_published (conj rho2_fun_published (conj rho3_fun_published AmpIntColFitCoeff_published)))))))))))))))))). Qed.

(** the effective spin the fits depend on: the mass-weighted spin minus 38 eta / 113 times the sum of the spins *)
Theorem pd_chi_pn m1 m2 chi1 chi2 : 0 < m1 -> 0 < m2 ->
  chiPN (pub_delta m1 m2) (pub_eta m1 m2) chi1 chi2 = pub_x1 m1 m2 * chi1 + pub_x2 m1 m2 * chi2 - 38 / 113 * pub_eta m1 m2 * (chi1 + chi2).
Proof. intros H1 H2. unfold chiPN, pub_delta, pub_eta, pub_x1, pub_x2. cbv zeta. field. lra. Qed.

(** ** final spin and radiated energy (Husa et al. 2016, eqs. 3.6 and 3.8) *)
Lemma pub_sqrt m1 m2 : 0 < m1 -> m1 >= m2 -> m2 > 0 -> sqrt (Rmax (1 - 4 * pub_eta m1 m2) 0) = pub_delta m1 m2.
Proof.
  intros H1 H2 H3. replace (1 - 4 * pub_eta m1 m2) with (pub_delta m1 m2 * pub_delta m1 m2) by (unfold pub_eta, pub_delta; field; lra).
  assert (0 <= pub_delta m1 m2) by (unfold pub_delta; apply Rmult_le_pos; [lra|left; apply Rinv_0_lt_compat; lra]).
  rewrite Rmax_left by nra. apply sqrt_square. assumption.
Qed.
Definition near (digits a b : R) : Prop := Rabs (a - b) <= digits.
Theorem pd_final_spin_published : exists k2 k3 k4 a1 a2 a3 a4 b1 b2 b3 b4 r,
  near (1 / 2000) k2 (- 4399 / 1000) /\ near (1 / 2000) k3 (9397 / 1000) /\ near (1 / 2000) k4 (- 13181 / 1000)
  /\ near (1 / 2000) a1 (- 85 / 1000) /\ near (1 / 2000) a2 (101 / 1000) /\ near (1 / 2000) a3 (- 1355 / 1000) /\ near (1 / 2000) a4 (- 868 / 1000)
  /\ near (1 / 2000) b1 (- 5837 / 1000) /\ near (1 / 2000) b2 (- 2097 / 1000) /\ near (1 / 2000) b3 (4109 / 1000) /\ near (1 / 2000) b4 (2064 / 1000)
  /\ near (1 / 1000000000000000) r (2 * sqrt 3)
  /\ forall m1 m2 chi1 chi2, 0 < m2 -> m2 <= m1 ->
     let eta := pub_eta m1 m2 in
     let s := pub_x1 m1 m2 ^ 2 * chi1 + pub_x2 m1 m2 ^ 2 * chi2 in
     FinalSpin0815 eta (eta * eta) chi1 chi2 = s + r * eta + k2 * eta ^ 2 + k3 * eta ^ 3 + k4 * eta ^ 4
       + (a1 * s + a2 * s ^ 2 + a3 * s ^ 3 + a4 * s ^ 4) * eta + (b1 * s + b2 * s ^ 2 + b3 * s ^ 3 + b4 * s ^ 4) * eta ^ 2.
Proof.
  exists (- (4399247300629289 / 1000000000000000)), (9397292189321194 / 1000000000000000), (- (13180949901606242 / 1000000000000000)).
  exists (- (850917821418767 / 10000000000000000)), (1014665242971878 / 10000000000000000), (- (13546806617824356 / 10000000000000000)), (- (8676969352555539 / 10000000000000000)).
  exists (- (5837029316602263 / 1000000000000000)), (- (20967746996832157 / 10000000000000000)), (4108962025369336 / 1000000000000000), (2064046835273906 / 1000000000000000).
  exists (34641016151377544 / 10000000000000000).
  assert (S3 : 17320508075688771 / 10000000000000000 < sqrt 3 < 17320508075688773 / 10000000000000000).
  { split; [rewrite <- (sqrt_square (17320508075688771 / 10000000000000000)) by lra|rewrite <- (sqrt_square (17320508075688773 / 10000000000000000)) by lra]; apply sqrt_lt_1; lra. }
  repeat match goal with |- near _ _ _ /\ _ => split; [unfold near; apply Rabs_le; lra|] end.
  intros m1 m2 chi1 chi2 H2 H1. cbv zeta. unfold FinalSpin0815. cbv zeta. rewrite pub_sqrt by lra.
  replace (5 / 10 * (1 + pub_delta m1 m2)) with (pub_x1 m1 m2) by (unfold pub_x1, pub_delta; field; lra).
  replace (5 / 10 * (1 - pub_delta m1 m2)) with (pub_x2 m1 m2) by (unfold pub_x2, pub_delta; field; lra).
  assert (0 < pub_eta m1 m2). { unfold pub_eta. apply Rdiv_lt_0_compat; [nra|apply pow_lt; lra]. }
  generalize dependent (pub_eta m1 m2). intros e He. field. lra.
Qed.
Theorem pd_radiated_energy_published : exists e0 e1 e2 e3 n0 n1 n2 d0 d1 d2,
  near (5 / 100000000) e0 (559745 / 10000000) /\ near (5 / 10000000) e1 (580951 / 1000000) /\ near (5 / 10000000) e2 (- 960673 / 1000000) /\ near (5 / 1000000) e3 (335241 / 100000)
  /\ near (5 / 1000000000) n0 (- 303023 / 100000000) /\ near (5 / 1000000) n1 (- 200661 / 100000) /\ near (5 / 1000000) n2 (770506 / 100000)
  /\ near (5 / 10000000) d0 (- 671440 / 1000000) /\ near (5 / 1000000) d1 (- 147569 / 100000) /\ near (5 / 1000000) d2 (730468 / 100000)
  /\ forall m1 m2 chi1 chi2, 0 < m2 -> m2 <= m1 ->
     let eta := pub_eta m1 m2 in
     let s := (m1 ^ 2 * chi1 + m2 ^ 2 * chi2) / (m1 ^ 2 + m2 ^ 2) in
     PhenomInternal_EradRational0815 eta (eta * eta) chi1 chi2
     = eta * (e0 + e1 * eta + e2 * eta ^ 2 + e3 * eta ^ 3) * (1 + s * (n0 + n1 * eta + n2 * eta ^ 2)) / (1 + s * (d0 + d1 * eta + d2 * eta ^ 2)).
Proof.
  exists (55974469826360077 / 1000000000000000000), (5809510763115132 / 10000000000000000), (- (9606726679372312 / 10000000000000000)), (3352411249771192 / 1000000000000000).
  exists (- (30302335878845507 / 10000000000000000000)), (- (20066110851351073 / 10000000000000000)), (77050567802399215 / 10000000000000000).
  exists (- (6714403054720589 / 10000000000000000)), (- (14756929437702908 / 10000000000000000)), (7304676214885011 / 1000000000000000).
  repeat match goal with |- near _ _ _ /\ _ => split; [unfold near; apply Rabs_le; lra|] end.
  intros m1 m2 chi1 chi2 H2 H1. cbv zeta. unfold PhenomInternal_EradRational0815. cbv zeta. rewrite pub_sqrt by lra.
  replace (5 / 10 * (1 + pub_delta m1 m2)) with (pub_x1 m1 m2) by (unfold pub_x1, pub_delta; field; lra).
  replace (5 / 10 * (1 - pub_delta m1 m2)) with (pub_x2 m1 m2) by (unfold pub_x2, pub_delta; field; lra).
  replace ((pub_x1 m1 m2 * pub_x1 m1 m2 * chi1 + pub_x2 m1 m2 * pub_x2 m1 m2 * chi2) / (pub_x1 m1 m2 * pub_x1 m1 m2 + pub_x2 m1 m2 * pub_x2 m1 m2))
    with ((m1 ^ 2 * chi1 + m2 ^ 2 * chi2) / (m1 ^ 2 + m2 ^ 2)) by (unfold pub_x1, pub_x2; field; repeat split; nra).
  match goal with |- ?a / ?b = ?c / ?d => replace b with d by ring; replace a with c by ring; reflexivity end.
Qed.
(** equal masses, no spin: the hypotheses are met and the remnant spins at 0.68 to 0.69 *)
Example pd_final_spin_example : 68 / 100 < FinalSpin0815 (1 / 4) (1 / 4 * (1 / 4)) 0 0 < 69 / 100.
Proof. unfold FinalSpin0815. cbv zeta. split; lra. Qed.
