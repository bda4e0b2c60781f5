"""Bernstein certificates for the ranges of the IMRPhenomD fits: writes rocq/theories/Phd_cert.v.
The certificates are only hints: Coq checks each identity with [field] and each sign with [lra]."""
import sys
sys.path.insert(0,'/verif/tools')
from bern import *
f=Fr
eta=U*Fr(1,4); xi=W*(-2); e2=eta*eta; e3=e2*eta
s=(1-2*eta)*(2*W-1)
A=f('3.4641016151377544')-f('4.399247300629289')*eta+f('9.397292189321194')*e2-f('13.180949901606242')*e3
Bq=(-f('0.0850917821418767')-f('5.837029316602263')*eta)+(f('0.1014665242971878')-f('2.0967746996832157')*eta)*s+(-f('1.3546806617824356')+f('4.108962025369336')*eta)*s*s+(-f('0.8676969352555539')+f('2.064046835273906')*eta)*s*s*s
fs=eta*A+s+eta*Bq*s
t=2*W-1
N=eta*(f('0.055974469826360077')+f('0.5809510763115132')*eta-f('0.9606726679372312')*e2+f('3.352411249771192')*e3)*(1+(-f('0.0030302335878845507')-f('2.0066110851351073')*eta+f('7.7050567802399215')*e2)*t)
D=1+(-f('0.6714403054720589')-f('1.4756929437702908')*eta+f('7.304676214885011')*e2)*t
out=['''(** Ranges of the IMRPhenomD fits on the physical domain, by Bernstein certificates written by tools/gen_phenom_cert.py:
    each polynomial is exhibited as a combination, with non-negative coefficients, of products of powers of u, 1-u, w, 1-w in [0,1]
    (mass ratio eta = u/4, spin xi = -2w or spin sum = (1-2eta)(2w-1)). Coq checks the identities ([field]) and the signs. *)
From Coq Require Import Reals Lra.
From Verif Require Import Phd_fits.
Local Open Scope R_scope.
Lemma bern_term c a b x y i j k l : 0 <= c -> 0 <= a -> 0 <= b -> 0 <= x -> 0 <= y -> 0 <= c * (a ^ i * b ^ j * (x ^ k * y ^ l)).
Proof. intros. apply Rmult_le_pos; [assumption|]. apply Rmult_le_pos; apply Rmult_le_pos; apply pow_le; assumption. Qed.
Local Ltac bern := repeat apply Rplus_le_le_0_compat; (apply bern_term; lra).
''']
def thm(name,lhs,P,pre='',unf=''):
    du,dw,B=bern(P)
    assert all(v>=0 for v in B.values()),(name,min(B.values()))
    out.append(f'''Lemma {name} u w : 0 <= u <= 1 -> 0 <= w <= 1 -> {lhs}.
Proof.
  intros Hu Hw. {unf}
  match goal with |- 0 <= ?e => replace e with ({cert(du,dw,B,'u','(1 - u)','w','(1 - w)')}); [bern|] end.
  field.
Qed.''')
for nm in ('gamma1_fun','gamma2_fun','gamma3_fun'):
    lo={'gamma1_fun':Fr(1,1000),'gamma2_fun':Fr(1,5),'gamma3_fun':Fr(1)}[nm]
    hi={'gamma1_fun':None,'gamma2_fun':None,'gamma3_fun':Fr(3,2)}[nm]
    thm(nm+'_lo',f'0 <= {nm} (u / 4) (u / 4 * (u / 4)) (- (2) * w) - {q(lo)}',fit(nm,eta,xi)-lo,unf=f'unfold {nm}.')
    if hi: thm(nm+'_hi',f'0 <= {q(hi)} - {nm} (u / 4) (u / 4 * (u / 4)) (- (2) * w)',hi-fit(nm,eta,xi),unf=f'unfold {nm}.')
FS='''(* the final-spin polynomial, with the division by eta cancelled (phenom_d.py 1097-1106) *)
Definition fs_poly (eta s : R) : R :=
  eta * ((34641016151377544 / 10000000000000000) - (4399247300629289 / 1000000000000000) * eta + (9397292189321194 / 1000000000000000) * (eta * eta) -
  (13180949901606242 / 1000000000000000) * (eta * eta * eta)) + s + eta * (- (850917821418767 / 10000000000000000) - (5837029316602263 / 1000000000000000) * eta +
  ((1014665242971878 / 10000000000000000) - (20967746996832157 / 10000000000000000) * eta) * s + ((- (13546806617824356 / 10000000000000000)) +
  (4108962025369336 / 1000000000000000) * eta) * (s * s) + ((- (8676969352555539 / 10000000000000000)) + (2064046835273906 / 1000000000000000) * eta) * (s * s * s)) * s.
(* numerator and denominator of the radiated energy (phenom_d.py 1125-1143) *)
Definition er_num (eta s : R) : R :=
  eta * ((55974469826360077 / 1000000000000000000) + (5809510763115132 / 10000000000000000) * eta - (9606726679372312 / 10000000000000000) * (eta * eta) +
  (3352411249771192 / 1000000000000000) * (eta * eta * eta)) * (1 + ((- (30302335878845507 / 10000000000000000000)) - (20066110851351073 / 10000000000000000) * eta +
  (77050567802399215 / 10000000000000000) * (eta * eta)) * s).
Definition er_den (eta s : R) : R :=
  1 + ((- (6714403054720589 / 10000000000000000)) - (14756929437702908 / 10000000000000000) * eta + (7304676214885011 / 1000000000000000) * (eta * eta)) * s.
'''
out.append(FS)
thm('fs_hi','0 <= 1 - fs_poly (u / 4) ((1 - 2 * (u / 4)) * (2 * w - 1))',1-fs,unf='unfold fs_poly.')
thm('fs_lo','0 <= fs_poly (u / 4) ((1 - 2 * (u / 4)) * (2 * w - 1)) + 1',fs+1,unf='unfold fs_poly.')
thm('er_num_lo','0 <= er_num (u / 4) (2 * w - 1)',N,unf='unfold er_num.')
thm('er_den_lo','0 <= er_den (u / 4) (2 * w - 1) - 1 / 10',D-Fr(1,10),unf='unfold er_den.')
thm('er_ratio','0 <= (13 / 100) * er_den (u / 4) (2 * w - 1) - er_num (u / 4) (2 * w - 1)',D*Fr(13,100)-N,unf='unfold er_den, er_num.')
open('/verif/rocq/theories/Phd_cert.v','w').write('\n'.join(out)+'\n')
