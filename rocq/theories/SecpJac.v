(** SecpJac.v -- doubling and addition of btcec.go in Jacobian coordinates compute the group law of secp256k1. *)
From Verif Require Import Base BigInt NumTh FieldP AbGroup AbZ WGroup WCurve SecpField SecpFieldThm SecpNorm SecpOps SecpPrimes PropSecpField Secp256k1 SecpCurve.
From Coq Require Import Znumtheory Field.

Notation v a := (fz p256k1 (fval a)).
Notation fa := (f_add p256k1). Notation fm := (f_mul p256k1). Notation fs := (f_sub p256k1). Notation fo := (f_opp p256k1).
Notation z0 := (fz p256k1 0). Notation z1 := (fz p256k1 1).
Notation jac := (WGroup.jac F z0 fm).
Add Field FpJ : FTH.

(** the field value [a] has magnitude [m] and stands for [u] *)
Definition rp (m : Z) (a : fe) (u : F) : Prop := 0 <= m /\ mag m a /\ v a = u.
Lemma rp_add m a u n b w : rp m a u -> rp n b w -> (m + n <=? 63) = true -> rp (m + n) (fe_add a b) (fa u w).
Proof. intros (M0 & M & <-) (N0 & N & <-) L. apply Z.leb_le in L. destruct (add_ok a b m n M0 N0 L M N) as [A B]. split; [lia|]. split; [exact A|]. rewrite B. apply fz_add. Qed.
Lemma fz_sub' k x : fz P ((k + 1) * P - x) = fo (z x).
Proof. rewrite <- fz_opp. apply z_cong. exists (k + 1). ring. Qed.
Lemma rp_neg m a u k : rp m a u -> ((m <=? k) && (k <=? 62))%bool = true -> rp (k + 1) (fe_neg a k) (fo u).
Proof.
  intros (M0 & M & <-) L. apply andb_prop in L as [L1 L2]. apply Z.leb_le in L1, L2. destruct (neg_ok a k ltac:(lia)) as [A B]; [apply (mag_mono m k); [lia|exact M]|].
  split; [lia|]. split; [exact A|]. rewrite B. apply fz_sub'.
Qed.
Lemma rp_mul m a u n b w : rp m a u -> rp n b w -> ((m <=? 8) && (n <=? 8))%bool = true -> rp 1 (fe_mul a b) (fm u w).
Proof.
  intros (M0 & M & <-) (N0 & N & <-) L. apply andb_prop in L as [L1 L2]. apply Z.leb_le in L1, L2. destruct (mul_ok a b) as [A B]; [apply (mag_mono m 8); [lia|exact M]|apply (mag_mono n 8); [lia|exact N]|].
  split; [lia|]. split; [exact A|]. rewrite <- fz_mul. apply z_cong, B.
Qed.
Lemma rp_sq m a u : rp m a u -> (m <=? 8) = true -> rp 1 (fe_sq a) (fm u u).
Proof.
  intros (M0 & M & <-) L. apply Z.leb_le in L. destruct (sq_ok a) as [A B]; [apply (mag_mono m 8); [lia|exact M]|].
  split; [lia|]. split; [exact A|]. rewrite <- fz_mul. apply z_cong, B.
Qed.
Lemma rp_mul_int m a u k : rp m a u -> ((0 <=? k) && (k <? 2 ^ 32) && (m * k <=? 63))%bool = true -> rp (m * k) (fe_mul_int a k) (fm u (z k)).
Proof.
  intros (M0 & M & <-) L. apply andb_prop in L as [L L3]. apply andb_prop in L as [L1 L2]. apply Z.leb_le in L1, L3. apply Z.ltb_lt in L2.
  destruct (mul_int_ok a k m M0 (conj L1 L2) L3 M) as [A B]. split; [nia|]. split; [exact A|]. rewrite B. apply fz_mul.
Qed.
Lemma rp_add_int m a u k : rp m a u -> ((m <=? 62) && (0 <=? k) && (k <=? 2 ^ 26))%bool = true -> rp (m + 1) (fe_add_int a k) (fa u (z k)).
Proof.
  intros (M0 & M & <-) L. apply andb_prop in L as [L L3]. apply andb_prop in L as [L1 L2]. apply Z.leb_le in L1, L2, L3.
  destruct (add_int_ok a k m (conj M0 L1) (conj L2 L3) M) as [A B]. split; [lia|]. split; [exact A|]. rewrite B. apply fz_add.
Qed.
Lemma norm_v a : mag 63 a -> canon (fe_norm a) /\ v (fe_norm a) = v a.
Proof. intro M. destruct (norm_ok a M) as [C N]. split; [exact C|]. rewrite N. apply fz_mod. apply Zmod_mod. Qed.
Lemma rp_norm m a u : rp m a u -> (m <=? 63) = true -> rp 1 (fe_norm a) u.
Proof.
  intros (M0 & M & <-) L. apply Z.leb_le in L. destruct (norm_v a) as [C N]; [apply (mag_mono m 63); [lia|exact M]|].
  split; [lia|]. split; [apply canon_mag, C|exact N].
Qed.

(** a normalized field value *)
Definition cn (a : fe) (u : F) : Prop := canon a /\ v a = u.
Lemma cn_norm m a u : rp m a u -> (m <=? 63) = true -> cn (fe_norm a) u.
Proof. intros (M0 & M & <-) L. apply Z.leb_le in L. apply norm_v. apply (mag_mono m 63); [lia|exact M]. Qed.
Lemma cn_rp a u : cn a u -> rp 1 a u.
Proof. intros [C <-]. split; [lia|]. split; [apply canon_mag, C|reflexivity]. Qed.
Lemma canon_eq a b : canon a -> canon b -> v a = v b -> a = b.
Proof.
  intros A B H. apply canon_inj; [exact A|exact B|]. apply fz_inj in H. apply canon_mag in A as [_ A], B as [_ B]. rewrite !Z.mod_small in H by assumption. exact H.
Qed.
Lemma cn_eqb a u b w : cn a u -> cn b w -> (fe_eqb a b = true /\ u = w) \/ (fe_eqb a b = false /\ u <> w).
Proof.
  intros [A <-] [B <-]. rewrite (eqb_ok a b A B). destruct (Z.eqb_spec (fval a) (fval b)) as [H|H]; [left|right]; split; auto; [now rewrite H|].
  intro Q. apply H. now rewrite (canon_eq a b A B Q).
Qed.
Lemma fe_int_canon k : 0 <= k <= 1 -> canon (fe_int k).
Proof. intro H. assert (K : k = 0 \/ k = 1) by lia. destruct K as [-> | ->]; unfold canon, fe_int, in26, fval; cbn; repeat split; try lia; reflexivity. Qed.
Lemma cn_int k : 0 <= k <= 1 -> cn (fe_int k) (z k).
Proof. intro H. split; [apply fe_int_canon, H|]. now rewrite (proj2 (int_ok k ltac:(lia))). Qed.
Lemma is_zero_v a : fe_is_zero a = true -> v a = z0.
Proof.
  destruct a as [a0 a1 a2 a3 a4 a5 a6 a7 a8 a9]. unfold fe_is_zero. intro H. apply Z.eqb_eq in H. rewrite !Z.lor_eq_0_iff in H.
  decompose [and] H. subst. reflexivity.
Qed.
Lemma cn_zero a : cn a z0 -> fe_is_zero a = true.
Proof. intros [C H]. rewrite (is_zero_ok a C). assert (K := proj2 (canon_mag a C)). apply fz_inj in H. rewrite Zmod_0_l, Z.mod_small in H by assumption. rewrite H. reflexivity. Qed.

(** the magnitudes and values of a chain of operations *)
Ltac rps :=
  match goal with
  | |- rp _ (fe_add _ _) _ => eapply rp_add; [rps|rps|reflexivity]
  | |- rp _ (fe_neg _ _) _ => eapply rp_neg; [rps|reflexivity]
  | |- rp _ (fe_mul _ _) _ => eapply rp_mul; [rps|rps|reflexivity]
  | |- rp _ (fe_sq _) _ => eapply rp_sq; [rps|reflexivity]
  | |- rp _ (fe_mul_int _ _) _ => eapply rp_mul_int; [rps|reflexivity]
  | |- rp _ (fe_add_int _ _) _ => eapply rp_add_int; [rps|reflexivity]
  | |- rp _ (fe_norm _) _ => eapply rp_norm; [rps|reflexivity]
  | |- rp _ _ _ => eassumption
  end.
Lemma rp_eq m a u w : rp m a u -> u = w -> rp m a w. Proof. intros H <-. exact H. Qed.
Lemma cn_eq a u w : cn a u -> u = w -> cn a w. Proof. intros H <-. exact H. Qed.
Lemma rp_up m n a u : rp m a u -> (m <=? n) = true -> rp n a u.
Proof. intros (M0 & M & E) L. apply Z.leb_le in L. split; [lia|]. split; [apply (mag_mono m n); [lia|exact M]|exact E]. Qed.

(** ** Jacobian points *)
Definition jrep (q : jp) (X Y Z : F) : Prop := let '(x, y, z) := q in rp 1 x X /\ rp 2 y Y /\ rp 1 z Z /\ (Z = z0 -> fe_is_zero z = true).
Definition jinv (q : jp) (A : E) : Prop := exists X Y Z, jrep q X Y Z /\ jac X Y Z (proj1_sig A).
Lemma jzero_rep : jrep jzero z0 z0 z0.
Proof. assert (C := cn_rp _ _ (cn_int 0 ltac:(lia))). unfold jrep, jzero, fe0. split; [exact C|]. split; [exact (rp_up 1 2 _ _ C eq_refl)|]. split; [exact C|reflexivity]. Qed.
Lemma jzero_inv (A : E) : proj1_sig A = None -> jinv jzero A.
Proof. intro H. exists z0, z0, z0. split; [exact jzero_rep|]. destruct A as [A O]. cbn [proj1_sig] in *. subst A. reflexivity. Qed.
Notation JD := (jac_dbl F z0 z1 fa fm fs fo (f_div P) (f_inv P) FTH (FID P prime_p256k1) (FD P) (z 7) (two_nz P prime_p256k1 p_gt3) sec_nt).
Notation JA := (jac_add F z0 z1 fa fm fs fo (f_div P) (f_inv P) FTH (FID P prime_p256k1) (FD P) (two_nz P prime_p256k1 p_gt3)).
Notation JZ := (jac_add_z F z0 z1 fa fm fs fo (f_div P) (f_inv P) FTH (FID P prime_p256k1) (FD P)).
Notation JY := (jac_y F z0 fa fm (FID P prime_p256k1) (z 7) sec_nt).
Notation wadd := (wadd F z0 z1 fa fm fs (f_div P) (FD P)).
Lemma eadd_w A B : proj1_sig (eadd A B) = wadd (proj1_sig A) (proj1_sig B). Proof. reflexivity. Qed.
Lemma z5 : z 16 = fm (fm (fm (z 2) (z 2)) (z 2)) (z 2). Proof. rewrite <- !fz_mul. reflexivity. Qed.

Local Opaque fe_add fe_neg fe_mul fe_sq fe_mul_int fe_add_int fe_norm fe_is_zero fe_eqb fe_int.

Lemma dbl_gen_ok x y zz X Y Z (A : E) : rp 1 x X -> rp 2 y Y -> rp 1 zz Z -> Z <> z0 -> jac X Y Z (proj1_sig A) -> jinv (dbl_gen x y zz) (eadd A A).
Proof.
  intros Hx Hy Hz N J. unfold dbl_gen. cbv zeta.
  set (x3 := fe_add (fe_neg _ 16) _). pose (X3v := fs (fm (fm (z 3) (fm X X)) (fm (z 3) (fm X X))) (fm (z 8) (fm X (fm Y Y)))).
  eassert (X3 : rp _ x3 X3v) by (subst x3; eapply rp_eq; [rps|unfold X3v; rewrite z8, z3, z2; ring]). clearbody x3.
  eexists X3v, _, _. split; [split; [|split; [|split]]|].
  - rps.
  - eapply rp_up; [rps|reflexivity].
  - rps.
  - intro K. apply cn_zero. eapply cn_eq; [eapply cn_norm; [rps|reflexivity]|exact K].
  - rewrite eadd_w. eapply (JD X Y Z (proj1_sig A)); [exact (proj2_sig A)|exact J|exact N|..].
    + unfold X3v. rewrite z8, z3, z2. ring.
    + rewrite z8, z3, z2. ring.
    + rewrite z2. ring.
Qed.
Lemma dbl_z1_ok x y X Y (A : E) : rp 1 x X -> rp 2 y Y -> jac X Y z1 (proj1_sig A) -> jinv (dbl_z1 x y) (eadd A A).
Proof.
  intros Hx Hy J. unfold dbl_z1. cbv zeta.
  set (x3 := fe_add (fe_neg _ 16) _). pose (X3v := fs (fm (fm (z 3) (fm X X)) (fm (z 3) (fm X X))) (fm (z 8) (fm X (fm Y Y)))).
  eassert (X3 : rp _ x3 X3v) by (subst x3; eapply rp_eq; [rps|unfold X3v; rewrite z8, z3, z2; ring]). clearbody x3.
  eexists X3v, _, _. split; [split; [|split; [|split]]|].
  - rps.
  - eapply rp_up; [rps|reflexivity].
  - rps.
  - intro K. apply cn_zero. eapply cn_eq; [eapply cn_norm; [rps|reflexivity]|exact K].
  - rewrite eadd_w. eapply (JD X Y z1 (proj1_sig A)); [exact (proj2_sig A)|exact J|exact one_nz|..].
    + unfold X3v. rewrite z8, z3, z2. ring.
    + rewrite z8, z3, z2. ring.
    + rewrite z2. ring.
Qed.
Lemma sum_zero (A : E) : proj1_sig A = None -> proj1_sig (eadd A A) = None.
Proof. intro H. rewrite eadd_w. destruct A as [A O]. cbn [proj1_sig] in *. subst A. reflexivity. Qed.
Lemma jac_none X Y Z (A : E) : jac X Y Z (proj1_sig A) -> Z = z0 -> proj1_sig A = None.
Proof. destruct A as [[[x y]|] O]; cbn [proj1_sig WGroup.jac]; [|reflexivity]. intros [N _] H. contradiction. Qed.
Lemma dbl_jac_ok q A : jinv q A -> jinv (dbl_jac q) (eadd A A).
Proof.
  destruct q as [[x y] zz]. intros (X & Y & Z & (Hx & Hy & Hz & Hn) & J). unfold dbl_jac.
  destruct (FD P Z z0) as [Z0|Z0].
  - rewrite (Hn Z0), orb_true_r. apply jzero_inv, sum_zero. exact (jac_none X Y Z A J Z0).
  - destruct (fe_is_zero y) eqn:Ey.
    { apply is_zero_v in Ey. destruct Hy as (_ & _ & Hy). rewrite Ey in Hy. destruct (JY X Y Z (proj1_sig A) (proj2_sig A) J Z0). now symmetry. }
    destruct (fe_is_zero zz) eqn:Ez. { apply is_zero_v in Ez. destruct Hz as (_ & _ & Hz). rewrite Ez in Hz. destruct Z0. now symmetry. }
    cbn [orb]. assert (CZ := cn_norm _ _ _ Hz eq_refl). destruct (cn_eqb _ _ _ _ CZ (cn_int 1 ltac:(lia))) as [[-> E1]|[-> E1]].
    + apply (dbl_z1_ok x y X Y A Hx Hy). rewrite <- E1. exact J.
    + apply (dbl_gen_ok x y (fe_norm zz) X Y Z A Hx Hy); [exact (cn_rp _ _ CZ)|exact Z0|exact J].
Qed.

(** ** addition *)
Lemma mul_nz a b : a <> z0 -> b <> z0 -> fm a b <> z0. Proof. intros A B H. apply (FID P prime_p256k1) in H as [H|H]; contradiction. Qed.
Lemma two_z : z 2 <> z0. Proof. intro H. exact (two_nz P prime_p256k1 p_gt3 (eq_trans (eq_sym z2) H)). Qed.
Lemma same_yes X1 Y1 Z1 X2 Y2 Z2 (A B : E) : jac X1 Y1 Z1 (proj1_sig A) -> jac X2 Y2 Z2 (proj1_sig B) -> Z1 <> z0 -> Z2 <> z0 ->
  fm X1 (fm Z2 Z2) = fm X2 (fm Z1 Z1) -> fm Y1 (fm (fm Z2 Z2) Z2) = fm Y2 (fm (fm Z1 Z1) Z1) -> A = B.
Proof.
  intros J1 J2 N1 N2 EX EY. apply e_eq. destruct (proj1_sig A) as [[x1 y1]|]; [|contradiction]. destruct (proj1_sig B) as [[x2 y2]|]; [|contradiction].
  rewrite (jac_same_x F z0 z1 fa fm fs fo (f_div P) (f_inv P) FTH (FID P prime_p256k1) _ _ _ _ _ _ _ _ _ _ J1 J2 EX), (jac_same_y F z0 z1 fa fm fs fo (f_div P) (f_inv P) FTH (FID P prime_p256k1) _ _ _ _ _ _ _ _ _ _ J1 J2 EY). reflexivity.
Qed.
Lemma same_no X1 Y1 Z1 X2 Y2 Z2 (A B : E) : jac X1 Y1 Z1 (proj1_sig A) -> jac X2 Y2 Z2 (proj1_sig B) -> Z1 <> z0 -> Z2 <> z0 ->
  fm X1 (fm Z2 Z2) = fm X2 (fm Z1 Z1) -> fm Y1 (fm (fm Z2 Z2) Z2) <> fm Y2 (fm (fm Z1 Z1) Z1) -> proj1_sig (eadd A B) = None.
Proof.
  intros J1 J2 N1 N2 EX EY. rewrite eadd_w. destruct (proj1_sig A) as [[x1 y1]|]; [|contradiction]. destruct (proj1_sig B) as [[x2 y2]|]; [|contradiction].
  assert (E := jac_same_x F z0 z1 fa fm fs fo (f_div P) (f_inv P) FTH (FID P prime_p256k1) _ _ _ _ _ _ _ _ _ _ J1 J2 EX). cbn [WGroup.wadd].
  destruct (FD P x1 x2) as [_|X]; [|contradiction]. destruct (FD P y1 y2) as [Q|_]; [|reflexivity]. destruct EY. destruct J1 as (_ & _ & ->), J2 as (_ & _ & ->). rewrite Q. ring.
Qed.
Lemma jrep_intro x y zz X Y Z : rp 1 x X -> rp 2 y Y -> rp 1 zz Z -> Z <> z0 -> jrep (x, y, zz) X Y Z.
Proof. intros Hx Hy Hz N. split; [exact Hx|]. split; [exact Hy|]. split; [exact Hz|]. intro K. contradiction. Qed.
Lemma ones_r a : fm a (fm z1 z1) = a. Proof. ring. Qed.
Lemma ones_r3 a : fm a (fm (fm z1 z1) z1) = a. Proof. ring. Qed.
Lemma sub_nz a b : a <> b -> fs b a <> z0.
Proof. intros N H. apply N. transitivity (fs b (fs b a)); [ring|]. rewrite H. ring. Qed.

Lemma add_gen_ok x1 y1 zz1 x2 y2 zz2 X1 Y1 Z1 X2 Y2 Z2 (A B : E) : rp 1 x1 X1 -> rp 2 y1 Y1 -> rp 1 zz1 Z1 -> rp 1 x2 X2 -> rp 2 y2 Y2 -> rp 1 zz2 Z2 ->
  Z1 <> z0 -> Z2 <> z0 -> jac X1 Y1 Z1 (proj1_sig A) -> jac X2 Y2 Z2 (proj1_sig B) -> jinv (add_gen x1 y1 zz1 x2 y2 zz2) (eadd A B).
Proof.
  intros Hx1 Hy1 Hz1 Hx2 Hy2 Hz2 N1 N2 J1 J2. unfold add_gen. cbv zeta.
  set (u1 := fe_norm (fe_mul x1 _)). set (u2 := fe_norm (fe_mul x2 _)). set (s1 := fe_norm (fe_mul (fe_mul y1 _) _)). set (s2 := fe_norm (fe_mul (fe_mul y2 _) _)).
  assert (U1 : cn u1 (fm X1 (fm Z2 Z2))) by (subst u1; eapply cn_norm; [rps|reflexivity]).
  assert (U2 : cn u2 (fm X2 (fm Z1 Z1))) by (subst u2; eapply cn_norm; [rps|reflexivity]).
  assert (S1 : cn s1 (fm Y1 (fm (fm Z2 Z2) Z2))) by (subst s1; eapply cn_eq; [eapply cn_norm; [rps|reflexivity]|ring]).
  assert (S2 : cn s2 (fm Y2 (fm (fm Z1 Z1) Z1))) by (subst s2; eapply cn_eq; [eapply cn_norm; [rps|reflexivity]|ring]).
  clearbody u1 u2 s1 s2.
  destruct (cn_eqb _ _ _ _ U1 U2) as [[-> E1]|[-> E1]].
  - destruct (cn_eqb _ _ _ _ S1 S2) as [[-> E2]|[-> E2]].
    + rewrite <- (same_yes X1 Y1 Z1 X2 Y2 Z2 A B J1 J2 N1 N2 E1 E2). apply dbl_jac_ok. exists X1, Y1, Z1. split; [apply jrep_intro; assumption|exact J1].
    + apply jzero_inv. exact (same_no X1 Y1 Z1 X2 Y2 Z2 A B J1 J2 N1 N2 E1 E2).
  - apply cn_rp in U1, U2, S1, S2.
    set (h := fe_add u2 (fe_neg u1 1)). pose (hv := fs (fm X2 (fm Z1 Z1)) (fm X1 (fm Z2 Z2))). eassert (H : rp _ h hv) by (subst h; eapply rp_eq; [rps|unfold hv; ring]).
    set (r := fe_mul_int (fe_add s2 (fe_neg s1 1)) 2). pose (rv := fm (z 2) (fs (fm Y2 (fm (fm Z1 Z1) Z1)) (fm Y1 (fm (fm Z2 Z2) Z2)))).
    eassert (R : rp _ r rv) by (subst r; eapply rp_eq; [rps|unfold rv; rewrite z2; ring]). clearbody h r.
    set (i := fe_sq (fe_mul_int h 2)). eassert (I : rp _ i (fm (z 4) (fm hv hv))) by (subst i; eapply rp_eq; [rps|rewrite z4; ring]). clearbody i.
    assert (HN : hv <> z0) by (apply sub_nz, E1). assert (Eh : hv = fs (fm X2 (fm Z1 Z1)) (fm X1 (fm Z2 Z2))) by reflexivity.
    assert (Er : rv = fm (fa z1 z1) (fs (fm Y2 (fm (fm Z1 Z1) Z1)) (fm Y1 (fm (fm Z2 Z2) Z2)))) by (unfold rv; rewrite z2; reflexivity). clearbody hv rv.
    set (x3 := fe_add (fe_neg _ 3) _). pose (X3v := fs (fs (fm rv rv) (fm (z 4) (fm (fm hv hv) hv))) (fm (z 8) (fm (fm X1 (fm Z2 Z2)) (fm hv hv)))).
    eassert (X3 : rp _ x3 X3v) by (subst x3; eapply rp_eq; [rps|unfold X3v; rewrite z8, z4; ring]). clearbody x3.
    eexists X3v, _, _. split; [apply jrep_intro|].
    + rps.
    + eapply rp_up; [rps|reflexivity].
    + rps.
    + intro K. apply (mul_nz (fm Z1 Z2) hv); [now apply mul_nz|exact HN|]. apply (mul_nz (z 2)) in HN; [|exact two_z]. destruct (FID P prime_p256k1 (z 2) (fm (fm Z1 Z2) hv)) as [Q|Q]; [|destruct (two_z Q)|exact Q].
      rewrite <- K. rewrite z2. ring.
    + rewrite eadd_w. eapply (JA X1 Y1 Z1 (proj1_sig A) X2 Y2 Z2 (proj1_sig B) hv rv); [exact J1|exact J2|exact N1|exact N2|exact Eh|exact Er|exact HN|..].
      * unfold X3v. rewrite z8, z4, z2. ring.
      * rewrite z4, z2. ring.
      * ring.
Qed.
Lemma add_z2_one_ok x1 y1 zz1 x2 y2 X1 Y1 Z1 X2 Y2 (A B : E) : rp 1 x1 X1 -> rp 2 y1 Y1 -> rp 1 zz1 Z1 -> rp 1 x2 X2 -> rp 2 y2 Y2 ->
  Z1 <> z0 -> jac X1 Y1 Z1 (proj1_sig A) -> jac X2 Y2 z1 (proj1_sig B) -> jinv (add_z2_one x1 y1 zz1 x2 y2) (eadd A B).
Proof.
  intros Hx1 Hy1 Hz1 Hx2 Hy2 N1 J1 J2. unfold add_z2_one. cbv zeta.
  assert (U1 : cn (fe_norm x1) X1) by (eapply cn_norm; [exact Hx1|reflexivity]). assert (S1 : cn (fe_norm y1) Y1) by (eapply cn_norm; [exact Hy1|reflexivity]).
  set (u1 := fe_norm x1) in *. set (s1 := fe_norm y1) in *. set (u2 := fe_norm (fe_mul x2 _)). set (s2 := fe_norm (fe_mul (fe_mul y2 _) _)).
  assert (U2 : cn u2 (fm X2 (fm Z1 Z1))) by (subst u2; eapply cn_norm; [rps|reflexivity]).
  assert (S2 : cn s2 (fm Y2 (fm (fm Z1 Z1) Z1))) by (subst s2; eapply cn_eq; [eapply cn_norm; [rps|reflexivity]|ring]).
  clearbody u1 u2 s1 s2.
  destruct (cn_eqb _ _ _ _ U1 U2) as [[-> E1]|[-> E1]].
  - rewrite <- ones_r in E1 at 1. destruct (cn_eqb _ _ _ _ S1 S2) as [[-> E2]|[-> E2]]; rewrite <- ones_r3 in E2 at 1.
    + rewrite <- (same_yes X1 Y1 Z1 X2 Y2 z1 A B J1 J2 N1 one_nz E1 E2). apply dbl_jac_ok. exists X1, Y1, Z1. apply cn_rp in U1, S1. split; [apply jrep_intro; auto|exact J1]. eapply rp_up; [exact S1|reflexivity].
    + apply jzero_inv. exact (same_no X1 Y1 Z1 X2 Y2 z1 A B J1 J2 N1 one_nz E1 E2).
  - apply cn_rp in U1, U2, S1, S2.
    set (h := fe_add u2 (fe_neg u1 1)). pose (hv := fs (fm X2 (fm Z1 Z1)) X1). eassert (H : rp _ h hv) by (subst h; eapply rp_eq; [rps|unfold hv; ring]).
    set (r := fe_mul_int (fe_add s2 (fe_neg s1 1)) 2). pose (rv := fm (z 2) (fs (fm Y2 (fm (fm Z1 Z1) Z1)) Y1)).
    eassert (R : rp _ r rv) by (subst r; eapply rp_eq; [rps|unfold rv; rewrite z2; ring]). clearbody h r.
    set (i := fe_mul_int (fe_sq h) 4). eassert (I : rp _ i (fm (z 4) (fm hv hv))) by (subst i; eapply rp_eq; [rps|rewrite z4; ring]). clearbody i.
    assert (HN : hv <> z0) by (apply sub_nz, E1). assert (Eh : hv = fs (fm X2 (fm Z1 Z1)) (fm X1 (fm z1 z1))) by (unfold hv; ring).
    assert (Er : rv = fm (fa z1 z1) (fs (fm Y2 (fm (fm Z1 Z1) Z1)) (fm Y1 (fm (fm z1 z1) z1)))) by (unfold rv; rewrite z2; ring). clearbody hv rv.
    set (x3 := fe_add (fe_neg _ 3) _). pose (X3v := fs (fs (fm rv rv) (fm (z 4) (fm (fm hv hv) hv))) (fm (z 8) (fm X1 (fm hv hv)))).
    eassert (X3 : rp _ x3 X3v) by (subst x3; eapply rp_eq; [rps|unfold X3v; rewrite z8, z4; ring]). clearbody x3.
    eexists X3v, _, _. split; [apply jrep_intro|].
    + rps.
    + eapply rp_up; [rps|reflexivity].
    + rps.
    + intro K. apply (mul_nz Z1 hv); [exact N1|exact HN|]. destruct (FID P prime_p256k1 (z 2) (fm Z1 hv)) as [Q|Q]; [|destruct (two_z Q)|exact Q].
      rewrite <- K. rewrite z2. ring.
    + rewrite eadd_w. eapply (JA X1 Y1 Z1 (proj1_sig A) X2 Y2 z1 (proj1_sig B) hv rv); [exact J1|exact J2|exact N1|exact one_nz|exact Eh|exact Er|exact HN|..].
      * unfold X3v. rewrite z8, z4, z2. ring.
      * rewrite z4, z2. ring.
      * ring.
Qed.
(** the second operand afterwards: the same values *)
Lemma add_ones_ok x1 y1 zz1 x2 y2 X1 Y1 X2 Y2 (A B : E) : rp 1 x1 X1 -> rp 2 y1 Y1 -> rp 1 zz1 z1 -> rp 1 x2 X2 -> rp 2 y2 Y2 ->
  jac X1 Y1 z1 (proj1_sig A) -> jac X2 Y2 z1 (proj1_sig B) ->
  jinv (fst (add_ones x1 y1 zz1 x2 y2)) (eadd A B) /\ rp 1 (fst (snd (add_ones x1 y1 zz1 x2 y2))) X2 /\ rp 2 (snd (snd (add_ones x1 y1 zz1 x2 y2))) Y2.
Proof.
  intros Hx1 Hy1 Hz1 Hx2 Hy2 J1 J2. unfold add_ones. cbv zeta. cbn [fst snd].
  assert (U1 : cn (fe_norm x1) X1) by (eapply cn_norm; [exact Hx1|reflexivity]). assert (S1 : cn (fe_norm y1) Y1) by (eapply cn_norm; [exact Hy1|reflexivity]).
  assert (U2 : cn (fe_norm x2) X2) by (eapply cn_norm; [exact Hx2|reflexivity]). assert (S2 : cn (fe_norm y2) Y2) by (eapply cn_norm; [exact Hy2|reflexivity]).
  set (u1 := fe_norm x1) in *. set (s1 := fe_norm y1) in *. set (u2 := fe_norm x2) in *. set (s2 := fe_norm y2) in *. clearbody u1 u2 s1 s2.
  split; [|apply cn_rp in U2, S2; split; [exact U2|eapply rp_up; [exact S2|reflexivity]]].
  destruct (cn_eqb _ _ _ _ U1 U2) as [[-> E1]|[-> E1]].
  - assert (E1' : fm X1 (fm z1 z1) = fm X2 (fm z1 z1)) by now rewrite E1. destruct (cn_eqb _ _ _ _ S1 S2) as [[-> E2]|[-> E2]].
    + assert (E2' : fm Y1 (fm (fm z1 z1) z1) = fm Y2 (fm (fm z1 z1) z1)) by now rewrite E2.
      rewrite <- (same_yes X1 Y1 z1 X2 Y2 z1 A B J1 J2 one_nz one_nz E1' E2'). apply dbl_jac_ok. exists X1, Y1, z1. apply cn_rp in U1, S1. split; [apply jrep_intro; auto using one_nz|exact J1]. eapply rp_up; [exact S1|reflexivity].
    + apply jzero_inv. apply (same_no X1 Y1 z1 X2 Y2 z1 A B J1 J2 one_nz one_nz E1'). rewrite !ones_r3. exact E2.
  - apply cn_rp in U1, U2, S1, S2.
    set (h := fe_add (fe_neg u1 1) u2). pose (hv := fs X2 X1). eassert (H : rp _ h hv) by (subst h; eapply rp_eq; [rps|unfold hv; ring]).
    set (r := fe_mul_int (fe_add (fe_neg s1 1) s2) 2). pose (rv := fm (z 2) (fs Y2 Y1)).
    eassert (R : rp _ r rv) by (subst r; eapply rp_eq; [rps|unfold rv; rewrite z2; ring]). clearbody h r.
    set (i := fe_mul_int (fe_sq h) 4). eassert (I : rp _ i (fm (z 4) (fm hv hv))) by (subst i; eapply rp_eq; [rps|rewrite z4; ring]). clearbody i.
    assert (HN : hv <> z0) by (apply sub_nz, E1). assert (Eh : hv = fs (fm X2 (fm z1 z1)) (fm X1 (fm z1 z1))) by (unfold hv; ring).
    assert (Er : rv = fm (fa z1 z1) (fs (fm Y2 (fm (fm z1 z1) z1)) (fm Y1 (fm (fm z1 z1) z1)))) by (unfold rv; rewrite z2; ring). clearbody hv rv.
    set (x3 := fe_add (fe_add (fe_sq r) _) _). pose (X3v := fs (fs (fm rv rv) (fm (z 4) (fm (fm hv hv) hv))) (fm (z 8) (fm X1 (fm hv hv)))).
    eassert (X3 : rp _ x3 X3v) by (subst x3; eapply rp_eq; [rps|unfold X3v; rewrite z8, z4; ring]). clearbody x3.
    eexists X3v, _, _. split; [apply jrep_intro|].
    + rps.
    + eapply rp_up; [rps|reflexivity].
    + rps.
    + apply mul_nz; [exact HN|exact two_z].
    + rewrite eadd_w. eapply (JA X1 Y1 z1 (proj1_sig A) X2 Y2 z1 (proj1_sig B) hv rv); [exact J1|exact J2|exact one_nz|exact one_nz|exact Eh|exact Er|exact HN|..].
      * unfold X3v. rewrite z8, z4, z2. ring.
      * rewrite z4, z2. ring.
      * rewrite z2. ring.
Qed.
Lemma add_same_z_ok x1 y1 zz1 x2 y2 X1 Y1 Z X2 Y2 (A B : E) : rp 1 x1 X1 -> rp 2 y1 Y1 -> rp 1 zz1 Z -> rp 1 x2 X2 -> rp 2 y2 Y2 -> Z <> z0 ->
  jac X1 Y1 Z (proj1_sig A) -> jac X2 Y2 Z (proj1_sig B) ->
  jinv (fst (add_same_z x1 y1 zz1 x2 y2)) (eadd A B) /\ rp 1 (fst (snd (add_same_z x1 y1 zz1 x2 y2))) X2 /\ rp 2 (snd (snd (add_same_z x1 y1 zz1 x2 y2))) Y2.
Proof.
  intros Hx1 Hy1 Hz1 Hx2 Hy2 N J1 J2. unfold add_same_z. cbv zeta. cbn [fst snd].
  assert (U1 : cn (fe_norm x1) X1) by (eapply cn_norm; [exact Hx1|reflexivity]). assert (S1 : cn (fe_norm y1) Y1) by (eapply cn_norm; [exact Hy1|reflexivity]).
  assert (U2 : cn (fe_norm x2) X2) by (eapply cn_norm; [exact Hx2|reflexivity]). assert (S2 : cn (fe_norm y2) Y2) by (eapply cn_norm; [exact Hy2|reflexivity]).
  set (u1 := fe_norm x1) in *. set (s1 := fe_norm y1) in *. set (u2 := fe_norm x2) in *. set (s2 := fe_norm y2) in *. clearbody u1 u2 s1 s2.
  split; [|apply cn_rp in U2, S2; split; [exact U2|eapply rp_up; [exact S2|reflexivity]]].
  destruct (cn_eqb _ _ _ _ U1 U2) as [[-> E1]|[-> E1]].
  - assert (E1' : fm X1 (fm Z Z) = fm X2 (fm Z Z)) by now rewrite E1. destruct (cn_eqb _ _ _ _ S1 S2) as [[-> E2]|[-> E2]].
    + assert (E2' : fm Y1 (fm (fm Z Z) Z) = fm Y2 (fm (fm Z Z) Z)) by now rewrite E2.
      rewrite <- (same_yes X1 Y1 Z X2 Y2 Z A B J1 J2 N N E1' E2'). apply dbl_jac_ok. exists X1, Y1, Z. apply cn_rp in U1, S1. split; [apply jrep_intro; auto|exact J1]. eapply rp_up; [exact S1|reflexivity].
    + apply jzero_inv. apply (same_no X1 Y1 Z X2 Y2 Z A B J1 J2 N N E1'). intro K. apply E2. apply (WGroup.mul_cancel F z0 z1 fa fm fs fo (f_div P) (f_inv P) FTH (FID P prime_p256k1) (fm (fm Z Z) Z)); [repeat apply mul_nz; exact N|].
      transitivity (fm Y1 (fm (fm Z Z) Z)); [ring|]. rewrite K. ring.
  - apply cn_rp in U1, U2, S1, S2.
    set (a := fe_add (fe_neg u1 1) u2). pose (av := fs X2 X1). eassert (H : rp _ a av) by (subst a; eapply rp_eq; [rps|unfold av; ring]).
    set (c := fe_add (fe_neg s1 1) s2). pose (cv := fs Y2 Y1). eassert (R : rp _ c cv) by (subst c; eapply rp_eq; [rps|unfold cv; ring]). clearbody a c.
    assert (HN : av <> z0) by (apply sub_nz, E1). assert (Eh : av = fs X2 X1) by reflexivity. assert (Er : cv = fs Y2 Y1) by reflexivity. clearbody av cv.
    set (x3 := fe_add (fe_neg _ 3) _). pose (X3v := fs (fs (fm cv cv) (fm X1 (fm av av))) (fm X2 (fm av av))).
    eassert (X3 : rp _ x3 X3v) by (subst x3; eapply rp_eq; [rps|unfold X3v; ring]). clearbody x3.
    eexists X3v, _, _. split; [apply jrep_intro|].
    + rps.
    + eapply rp_up; [rps|reflexivity].
    + rps.
    + apply mul_nz; assumption.
    + rewrite eadd_w. eapply (JZ X1 Y1 Z (proj1_sig A) X2 Y2 (proj1_sig B) av cv); [exact J1|exact J2|exact N|exact Eh|exact Er|exact HN|reflexivity| |reflexivity].
      ring.
Qed.

Lemma jinf_ok q X Y Z (A : E) : jrep q X Y Z -> jac X Y Z (proj1_sig A) -> (jinf q = true /\ proj1_sig A = None) \/ (jinf q = false /\ Z <> z0).
Proof.
  destruct q as [[x y] zz]. intros (Hx & Hy & Hz & Hn) J. unfold jinf. destruct (FD P Z z0) as [Z0|Z0].
  - left. rewrite (Hn Z0), orb_true_r. split; [reflexivity|exact (jac_none X Y Z A J Z0)].
  - right. split; [|exact Z0]. apply orb_false_iff. split; [apply andb_false_iff; right|].
    + destruct (fe_is_zero y) eqn:Q; [|reflexivity]. apply is_zero_v in Q. destruct Hy as (_ & _ & Hy). rewrite Q in Hy. destruct (JY X Y Z (proj1_sig A) (proj2_sig A) J Z0). now symmetry.
    + destruct (fe_is_zero zz) eqn:Q; [|reflexivity]. apply is_zero_v in Q. destruct Hz as (_ & _ & Hz). rewrite Q in Hz. destruct Z0. now symmetry.
Qed.
Lemma add_0_l (A B : E) : proj1_sig A = None -> eadd A B = B.
Proof. intro H. apply e_eq. rewrite eadd_w. destruct A as [A O]. cbn [proj1_sig] in *. subst A. reflexivity. Qed.
Lemma add_0_r (A B : E) : proj1_sig B = None -> eadd A B = A. Proof. intro H. rewrite EC. apply add_0_l, H. Qed.
(** addJacobian adds, and leaves its second operand the same point with the same coordinates *)
Theorem add_jac_ok p q A B X Y Z : jinv p A -> jrep q X Y Z -> jac X Y Z (proj1_sig B) -> jinv (fst (add_jac p q)) (eadd A B) /\ jrep (snd (add_jac p q)) X Y Z.
Proof.
  intros (X1 & Y1 & Z1 & R1 & J1) R2 J2. unfold add_jac.
  destruct (jinf_ok p X1 Y1 Z1 A R1 J1) as [[-> HA]|[-> N1]].
  { cbn [fst snd]. rewrite (add_0_l A B HA). split; [exists X, Y, Z; split; assumption|exact R2]. }
  destruct (jinf_ok q X Y Z B R2 J2) as [[-> HB]|[-> N2]].
  { cbn [fst snd]. rewrite (add_0_r A B HB). split; [exists X1, Y1, Z1; split; assumption|exact R2]. }
  destruct p as [[x1 y1] zz1], q as [[x2 y2] zz2]. destruct R1 as (Hx1 & Hy1 & Hz1 & _), R2 as (Hx2 & Hy2 & Hz2 & _). cbv zeta.
  assert (C1 := cn_norm _ _ _ Hz1 eq_refl). assert (C2 := cn_norm _ _ _ Hz2 eq_refl). set (w1 := fe_norm zz1) in *. set (w2 := fe_norm zz2) in *. clearbody w1 w2.
  assert (D1 := cn_rp _ _ C1). assert (D2 := cn_rp _ _ C2). assert (C3 := cn_int 1 ltac:(lia)).
  assert (SR : forall x y, rp 1 x X -> rp 2 y Y -> jrep (x, y, w2) X Y Z) by (intros; apply jrep_intro; assumption).
  destruct (cn_eqb _ _ _ _ C2 C3) as [[-> E2]|[-> E2]].
  - destruct (cn_eqb _ _ _ _ C1 C3) as [[-> E1]|[-> E1]]; cbn [andb].
    + rewrite E1 in *. rewrite E2 in *. destruct (add_ones_ok x1 y1 w1 x2 y2 X1 Y1 X Y A B Hx1 Hy1 D1 Hx2 Hy2 J1 J2) as (O1 & O2 & O3).
      destruct (add_ones x1 y1 w1 x2 y2) as [r [x y]]. cbn [fst snd] in *. split; [exact O1|]. apply SR; assumption.
    + destruct (cn_eqb _ _ _ _ C1 C2) as [[_ E3]|[-> E3]]; [destruct E1; now rewrite E3|]. cbn [fst snd]. split; [|apply SR; assumption].
      rewrite E2 in J2. exact (add_z2_one_ok x1 y1 w1 x2 y2 X1 Y1 Z1 X Y A B Hx1 Hy1 D1 Hx2 Hy2 N1 J1 J2).
  - rewrite andb_false_r. destruct (cn_eqb _ _ _ _ C1 C2) as [[-> E3]|[-> E3]].
    + subst Z1. destruct (add_same_z_ok x1 y1 w1 x2 y2 X1 Y1 Z X Y A B Hx1 Hy1 D1 Hx2 Hy2 N2 J1 J2) as (O1 & O2 & O3).
      destruct (add_same_z x1 y1 w1 x2 y2) as [r [x y]]. cbn [fst snd] in *. split; [exact O1|]. apply SR; assumption.
    + cbn [fst snd]. split; [|apply SR; assumption]. exact (add_gen_ok x1 y1 w1 x2 y2 w2 X1 Y1 Z1 X Y Z A B Hx1 Hy1 D1 Hx2 Hy2 D2 N1 N2 J1 J2).
Qed.
