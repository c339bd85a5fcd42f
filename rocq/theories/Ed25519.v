(** Ed25519.v -- the curve the repository actually uses: tss.Edwards() (tss/curve.go 24-32), i.e. -x^2 + y^2 = 1 + d x^2 y^2
    over the integers modulo 2^255 - 19 with d = -121665/121666, base point (x, 4/5) of prime order
    2^252 + 27742317777372353535851937790883648493.  The arithmetic of decred/edwards and agl/ed25519 is external to /repo;
    it is modelled by the mathematical definition of the curve (EdwardsP.v).  All laws the other files assume of the curve and
    of the point encoding are proved for it here. *)
From Verif Require Import Base BigInt NumTh Curve Onsign OnsignEnc FieldP EdGroup EdwardsP Pocklington.
From Coq Require Import Znumtheory.

Definition p25519 : Z := 2 ^ 255 - 19.
Definition n25519 : Z := 2 ^ 252 + ell_c.
Definition d25519 : Z := 37095705934669439343138083508754565189542113879843219016388785533085940283555.
Definition i25519 : Z := 19681161376707505956807079304988542015446066515923890162744021073123829784752.
Definition gx25519 : Z := 15112221349535400772501151409588531511454012693041857206046113283949847762202.
Definition gy25519 : Z := 46316835694926478169428394003475163141307993866256225615783033603165251855960.
(** y coordinate of a point of order 8 *)
Definition ty25519 : Z := 2707385501144840649318225287225658788936804267575313519463743609750303402022.
Notation ed25519 := (edw p25519 n25519 d25519 gx25519 gy25519 red_25519).
Definition ed25519lib : edlib := edwlib p25519 d25519 i25519.

(** the parameters are the published ones *)
Theorem C52_parameters :
  (d25519 * 121666 + 121665) mod p25519 = 0 /\ (5 * gy25519 - 4) mod p25519 = 0 /\ Z.even gx25519 = true /\ n25519 = 2 ^ 252 + 27742317777372353535851937790883648493.
Proof. repeat split; vm_compute; reflexivity. Qed.

Lemma fold_cong k c x : 0 <= k -> cong (2 ^ k - c) (fold_sub k c x) x.
Proof.
  intro K. unfold fold_sub. rewrite Z.land_ones, Z.shiftr_div_pow2 by lia. exists (- (x / 2 ^ k)). rewrite (Z.mod_eq x (2 ^ k)) by lia. ring.
Qed.
Lemma red_cong x : cong p25519 (red_25519 x) x.
Proof. unfold red_25519, p25519. rewrite fold_cong by lia. apply fold_cong. lia. Qed.

Lemma pr_p : prime p25519. Proof. exact prime_25519. Qed.
Lemma pr_n : prime n25519. Proof. exact prime_ell. Qed.
Lemma p_mod8 : p25519 mod 8 = 5. Proof. reflexivity. Qed.
Lemma p_bound : p25519 < 2 ^ 255. Proof. reflexivity. Qed.
Lemma n_bound : 8 < n25519 < 2 ^ 253. Proof. split; reflexivity. Qed.
Lemma p_lt_8n : p25519 < 8 * n25519. Proof. reflexivity. Qed.
Lemma i_sq : (i25519 * i25519 + 1) mod p25519 = 0. Proof. vm_compute. reflexivity. Qed.
Lemma d_pow : cong p25519 (d25519 ^ ((p25519 - 1) / 2)) (- 1).
Proof.
  set (e := 28948022309329048855892746252171976963317496166410141009864396001978282409974%positive).
  assert (E : (p25519 - 1) / 2 = Zpos e) by (vm_compute; reflexivity). rewrite E.
  destruct (ppow_spec p25519 red_25519 d25519 e red_25519_ok ltac:(discriminate)) as [_ H]. rewrite <- H.
  assert (Q : (ppow red_25519 d25519 e + 1) mod p25519 = 0) by (vm_compute; reflexivity).
  apply Zmod_divide in Q; [|discriminate]. destruct Q as [q Hq]. exists q. lia.
Qed.
Lemma g_range : 0 <= gx25519 < p25519 /\ 0 <= gy25519 < p25519. Proof. repeat split; vm_compute; congruence. Qed.
Lemma g_on : EdGroup.on (fp p25519) (f1 p25519) (f_add p25519) (f_mul p25519) (f_sub p25519) (dd p25519 d25519) (fz p25519 gx25519) (fz p25519 gy25519).
Proof. apply (on_Z p25519 d25519 i25519 red_25519 pr_p p_mod8 red_cong). vm_compute. reflexivity. Qed.
Lemma t_on : EdGroup.on (fp p25519) (f1 p25519) (f_add p25519) (f_mul p25519) (f_sub p25519) (dd p25519 d25519) (fz p25519 (i25519 * ty25519)) (fz p25519 ty25519).
Proof. apply (on_Z p25519 d25519 i25519 red_25519 pr_p p_mod8 red_cong). vm_compute. reflexivity. Qed.
Lemma ng_zero : g_check p25519 n25519 d25519 gx25519 gy25519 red_25519 = true.
Proof. vm_compute. reflexivity. Qed.
Lemma gy_not_1 : gy25519 <> 1. Proof. discriminate. Qed.

(** ** C52 *)
Theorem C52_curve_laws : curve_laws ed25519.
Proof.
  exact (edw_laws p25519 n25519 d25519 i25519 gx25519 gy25519 red_25519 pr_p p_mod8 p_bound i_sq d_pow red_cong ty25519 t_on pr_n n_bound p_lt_8n g_range g_on gy_not_1 ng_zero).
Qed.
Theorem C52_encoding_laws : ed_laws ed25519 ed25519lib.
Proof. exact (edw_ed_laws p25519 n25519 d25519 i25519 gx25519 gy25519 red_25519 pr_p p_mod8 p_bound i_sq d_pow red_cong). Qed.
