(** Secp256k1.v -- the curve of btcec.S256(): y^2 = x^3 + 7 over the integers modulo 2^256 - 2^32 - 977.  Its parameters are the ones
    of package/github.com/btcsuite/btcd/btcec/v1/btcec.go initS256; here it is shown that the curve has exactly N points, that they are
    the multiples of the base point G, and that (x, y) -> (beta x, y) is multiplication by lambda.  Pure mathematics; the Go code that
    computes on the curve is modelled in SecpCurve.v. *)
From Verif Require Import Base NumTh Euler FieldP AbGroup AbZ WGroup WCurve Pocklington SecpField SecpFieldThm SecpPrimes.
From Coq Require Import Znumtheory Field.

(** btcec.go initS256 *)
Definition gx256 : Z := 55066263022277343669578718895168534326250603453777594175500187360389116729240.
Definition gy256 : Z := 32670510020758816978083085130507043184471273380659243275938904335757337482424.
Definition lam256 : Z := 37718080363155996902926221483475020450927657555482586988616620542887997980018.
Definition beta256 : Z := 55594575648329892869085402983802832744385952214688224221778511981742606582254.
Definition a1_256 : Z := 64502973549206556628585045361533709077.
Definition b1_256 : Z := - 303414439467246543595250775667605759171.
Definition a2_256 : Z := 367917413016453100223835821029139468248.
Definition b2_256 : Z := 64502973549206556628585045361533709077.

Notation P := p256k1.
Notation z := (fz p256k1).
Notation F := (fp p256k1).
Lemma red_cong x : cong P (red_p256 x) x.
Proof.
  assert (K : forall y, cong P (fold_sub 256 4294968273 y) y).
  { intro y. unfold fold_sub. rewrite Z.land_ones, Z.shiftr_div_pow2 by lia. exists (- (y / 2 ^ 256)). rewrite (Z.mod_eq y (2 ^ 256)) by lia. unfold p256k1. ring. }
  unfold red_p256. rewrite K. apply K.
Qed.
Lemma z_red x : z (red_p256 x) = z x. Proof. apply fz_mod. apply cong_eq; [reflexivity|apply red_cong]. Qed.
Lemma p_gt3 : 3 < P. Proof. reflexivity. Qed.
Lemma z_cong x y : cong P x y -> z x = z y. Proof. intro H. apply fz_mod. apply cong_eq; [reflexivity|exact H]. Qed.

(** ** no point has y = 0: -7 is not a cube *)
Definition e3 : positive := 38597363079105398474523661669562635951089994888546854679819194669302944890554%positive.
Lemma e3_ok : 3 * Zpos e3 = P - 1. Proof. reflexivity. Qed.
Lemma not_cube : (ppow red_p256 (P - 7) e3) mod P <> 1.
Proof. intro H. assert (K : (ppow red_p256 (P - 7) e3 mod P =? 1) = false) by (vm_compute; reflexivity). rewrite H in K. discriminate K. Qed.
Lemma mod1 w : cong P w 1 -> w mod P = 1. Proof. intro H. apply cong_eq in H; [|reflexivity]. rewrite H. reflexivity. Qed.
Lemma pow3 x k : 0 <= k -> (x * x * x) ^ k = x ^ (3 * k).
Proof. intro H. rewrite Z.pow_mul_r by lia. f_equal. ring. Qed.
Lemma sec_nt (x y : F) : WGroup.on F (f_add P) (f_mul P) (z 7) x y -> y <> z 0.
Proof.
  unfold WGroup.on. intros O E. subst y. rewrite <- (fz_fv P x) in O. rewrite <- !fz_mul, <- fz_add in O. set (v := fv P x) in *.
  apply fz_inj in O. change (0 * 0) with 0 in O. rewrite Zmod_0_l in O. symmetry in O. apply Zmod_divide in O; [|discriminate].
  assert (C : cong P (v * v * v) (P - 7)). { destruct O as [q Hq]. exists (q - 1). rewrite Z.mul_sub_distr_r, <- Hq. ring. }
  apply not_cube. destruct (ppow_spec P red_p256 (P - 7) e3 red_p256_ok ltac:(discriminate)) as [_ S].
  assert (T : cong P (ppow red_p256 (P - 7) e3) 1).
  { rewrite S. rewrite <- C. rewrite pow3 by discriminate. rewrite e3_ok. apply fermat; [exact prime_p256k1|].
    apply Zgcd_1_rel_prime, rel_prime_sym, prime_rel_prime; [exact prime_p256k1|]. intros [q Hq]. destruct O as [q' Hq']. rewrite Hq in Hq'.
    assert (D : (P | 7)). { exists (q' - q * P * q * P * q). lia. } apply Z.divide_pos_le in D; [revert D|reflexivity]. vm_compute. congruence. }
  exact (mod1 _ T).
Qed.

Notation E := (WCurve.E P 7).
Notation eadd := (WCurve.eadd P 7 prime_p256k1 p_gt3 sec_nt).
Notation eneg := (WCurve.eneg P 7 prime_p256k1).
Notation ezero := (WCurve.ezero P 7).
Notation zm := (AbZ.zm E eadd ezero eneg).
Notation e_eq := (WCurve.e_eq P 7).
Notation onz x y := (WGroup.on F (f_add P) (f_mul P) (z 7) (z x) (z y)).
Lemma on_z x y : (y * y - (x * x * x + 7)) mod P = 0 -> onz x y.
Proof. intro H. unfold WGroup.on. rewrite <- !fz_mul, <- fz_add. apply z_cong. apply Zmod_divide in H; [|discriminate]. exact H. Qed.
Lemma g_on : onz gx256 gy256. Proof. apply on_z. vm_compute. reflexivity. Qed.
(** the base point *)
Definition G : E := exist _ (Some (z gx256, z gy256)) g_on.
Lemma beta2 : f_add P (f_add P (f_mul P (z beta256) (z beta256)) (z beta256)) (z 1) = z 0.
Proof. rewrite <- fz_mul, <- !fz_add. apply fz_mod. vm_compute. reflexivity. Qed.
Lemma beta3 : f_mul P (f_mul P (z beta256) (z beta256)) (z beta256) = z 1.
Proof. rewrite <- !fz_mul. apply fz_mod. vm_compute. reflexivity. Qed.
Notation phi := (WCurve.phi P 7 prime_p256k1 (z beta256) beta3).

(** ** the relation a1 G + b1 phi(G) = 0, by computation in Jacobian coordinates *)
Definition gx1 : Z := 85340279321737800624759429340272274763154997815782306132637707972559913914315.
Definition gx2 : Z := 91177636130617246552803821781935006617134368061721227770777272682868638699771.
Definition gyn : Z := P - gy256.
Lemma gx1_ok : z gx1 = f_mul P (z beta256) (z gx256). Proof. rewrite <- fz_mul. apply fz_mod. vm_compute. reflexivity. Qed.
Lemma gx2_ok : z gx2 = f_mul P (z beta256) (f_mul P (z beta256) (z gx256)). Proof. rewrite <- !fz_mul. apply fz_mod. vm_compute. reflexivity. Qed.
Lemma gyn_ok : z gyn = f_opp P (z gy256). Proof. rewrite <- fz_opp. apply fz_mod. vm_compute. reflexivity. Qed.
(** digit d stands for i + j phi, and the point is (x, y) *)
Definition tab (d : Z) : option (Z * Z * (Z * Z)) :=
  match d with
  | 0 => Some (1, 0, (gx256, gy256)) | 1 => Some (- 1, 0, (gx256, gyn))
  | 2 => Some (0, 1, (gx1, gy256)) | 3 => Some (0, - 1, (gx1, gyn))
  | 4 => Some (- 1, - 1, (gx2, gy256)) | 5 => Some (1, 1, (gx2, gyn))
  | _ => None end.
Definition jd (s : Z * Z * Z) : Z * Z * Z :=
  let '(X, Y, Z) := s in let XX := red_p256 (X * X) in let YY := red_p256 (Y * Y) in let S := 4 * red_p256 (X * YY) in let M := 3 * XX in
  let X3 := red_p256 (M * M - 2 * S) in (X3, red_p256 (M * (S - X3) - 8 * (YY * YY)), red_p256 (2 * (Y * Z))).
Definition jm (s : Z * Z * Z) (q : Z * Z) : option (Z * Z * Z) :=
  let '(X, Y, Z) := s in let '(x, y) := q in let ZZ := red_p256 (Z * Z) in let h := red_p256 (x * ZZ) - X in let r := 2 * (red_p256 (y * red_p256 (Z * ZZ)) - Y) in
  let HH := red_p256 (h * h) in let HHH := red_p256 (h * HH) in let V := red_p256 (X * HH) in let X3 := red_p256 (r * r - 4 * HHH - 8 * V) in
  if h mod P =? 0 then None else Some (X3, red_p256 (r * (4 * V - X3) - 8 * (Y * HHH)), red_p256 (2 * (Z * h))).
Fixpoint jrun (l : list Z) (i j : Z) (s : Z * Z * Z) : option (Z * Z * (Z * Z * Z)) :=
  match l with
  | [] => Some (i, j, s)
  | d :: l => let s := jd s in
    match tab d with
    | None => jrun l (2 * i) (2 * j) s
    | Some (i', j', q) => match jm s q with None => None | Some s => jrun l (2 * i + i') (2 * j + j') s end
    end
  end.
Definition chain : list Z := [6; 6; 5; 0; 6; 3; 6; 0; 4; 2; 6; 6; 0; 4; 0; 6; 5; 0; 6; 0; 6; 6; 0; 2; 6; 6; 5; 6; 2; 6; 5; 6; 1; 6; 0; 6; 0; 6; 6; 3; 6; 6; 1; 4; 6; 0; 2; 0; 4; 6; 6; 1; 4; 0; 6; 6; 6; 4; 6; 5; 2; 6; 1; 6; 3; 6; 1; 2; 0; 6; 6; 6; 5; 2; 6; 4; 6; 4; 6; 0; 4; 6; 6; 0; 6; 6; 6; 0; 2; 6; 4; 6; 3; 0; 6; 3; 0; 6; 0; 4; 6; 2; 0; 2; 0; 2; 6; 6; 6; 0; 6; 0; 6; 2; 4; 0; 6; 4; 6; 4; 6; 2; 0; 6; 1; 4; 6].
Definition fin_check (r : option (Z * Z * (Z * Z * Z))) : bool :=
  match r with
  | Some (i, j, s) => let '(X, Y, Z) := jd s in
    (2 * i + 1 =? a1_256) && (2 * j + 1 =? b1_256) && ((X - gx2 * (Z * Z)) mod P =? 0) && ((Y - gy256 * (Z * Z * Z)) mod P =? 0)
  | None => false end.
Definition rel_check (l : list Z) : bool := fin_check (jrun l 0 (- 1) (gx1, gyn, 1)).
Lemma rel_ok : rel_check chain = true. Proof. vm_compute. reflexivity. Qed.

Definition lc (i j : Z) : E := eadd (zm i G) (zm j (phi G)).
Notation EC := (e_comm P 7 prime_p256k1 p_gt3 sec_nt). Notation EA := (e_assoc P 7 prime_p256k1 p_gt3 sec_nt). Notation EI := (e_id P 7 prime_p256k1 p_gt3 sec_nt). Notation EV := (e_inv P 7 prime_p256k1 p_gt3 sec_nt).
Lemma lc_add i j i' j' : eadd (lc i j) (lc i' j') = lc (i + i') (j + j').
Proof. unfold lc. rewrite !(zm_add E eadd ezero eneg EC EA EI EV). apply (swap4 E eadd EC EA). Qed.
Lemma lc_neg i j : eneg (lc i j) = lc (- i) (- j).
Proof. unfold lc. rewrite !(zm_opp E eadd ezero eneg EC EA EI EV). apply (neg_add' E eadd ezero eneg EC EA EI EV). Qed.
Lemma lc_dbl i j : eadd (lc i j) (lc i j) = lc (2 * i) (2 * j). Proof. rewrite lc_add. f_equal; ring. Qed.
Lemma lc_g : lc 1 0 = G. Proof. unfold lc. rewrite (zm_1 E eadd ezero eneg EC EA EI EV), (zm_0 E eadd ezero eneg EC EA EI EV), EC. apply EI. Qed.
Lemma lc_p : lc 0 1 = phi G. Proof. unfold lc. rewrite (zm_1 E eadd ezero eneg EC EA EI EV), (zm_0 E eadd ezero eneg EC EA EI EV). apply EI. Qed.
Lemma lc_pp : lc (- 1) (- 1) = phi (phi G).
Proof.
  transitivity (eneg (lc 1 1)); [symmetry; exact (lc_neg 1 1)|]. symmetry. apply (neg_u E eadd ezero eneg EC EA EI EV). unfold lc. rewrite !(zm_1 E eadd ezero eneg EC EA EI EV), EA.
  exact (phi_sum P 7 prime_p256k1 p_gt3 sec_nt (z beta256) beta3 G beta2).
Qed.
Lemma tab_ok d i j q : tab d = Some (i, j, q) -> proj1_sig (lc i j) = Some (z (fst q), z (snd q)).
Proof.
  assert (B0 : proj1_sig (lc 1 0) = Some (z gx256, z gy256)) by (rewrite lc_g; reflexivity).
  assert (B1 : proj1_sig (lc 0 1) = Some (z gx1, z gy256)) by (rewrite lc_p, gx1_ok; reflexivity).
  assert (B2 : proj1_sig (lc (- 1) (- 1)) = Some (z gx2, z gy256)) by (rewrite lc_pp, gx2_ok; reflexivity).
  assert (NG : forall i j x y, proj1_sig (lc i j) = Some (x, y) -> proj1_sig (lc (- i) (- j)) = Some (x, f_opp P y)).
  { intros i0 j0 x y H. rewrite <- lc_neg. unfold WCurve.eneg, gneg. cbn [proj1_sig]. rewrite H. reflexivity. }
  unfold tab. intro H.
  assert (K : (i, j, q) = (1, 0, (gx256, gy256)) \/ (i, j, q) = (- 1, 0, (gx256, gyn)) \/ (i, j, q) = (0, 1, (gx1, gy256)) \/ (i, j, q) = (0, - 1, (gx1, gyn)) \/ (i, j, q) = (- 1, - 1, (gx2, gy256)) \/ (i, j, q) = (1, 1, (gx2, gyn))).
  { repeat match type of H with context [match ?x with _ => _ end] => destruct x end; try discriminate H; injection H; intros; subst; auto 8. }
  clear H. destruct K as [K|[K|[K|[K|[K|K]]]]]; injection K; intros -> -> ->; cbn [fst snd]; rewrite ?gyn_ok.
  - exact B0.
  - exact (NG _ _ _ _ B0).
  - exact B1.
  - exact (NG _ _ _ _ B1).
  - exact B2.
  - exact (NG _ _ _ _ B2).
Qed.
Notation jac := (WGroup.jac F (z 0) (f_mul P)).
Definition jz (s : Z * Z * Z) (A : E) : Prop := let '(X, Y, Z) := s in jac (z X) (z Y) (z Z) (proj1_sig A) /\ z Z <> z 0.
Lemma z_split : forall x y, z (x + y) = f_add P (z x) (z y) /\ z (x * y) = f_mul P (z x) (z y) /\ z (x - y) = f_sub P (z x) (z y).
Proof. intros. split; [apply fz_add|split; [apply fz_mul|apply fz_sub]]. Qed.
Notation FTH := (FT P prime_p256k1).
Add Field FpS : FTH.
Lemma z2 : z 2 = f_add P (z 1) (z 1). Proof. rewrite <- fz_add. reflexivity. Qed.
Lemma z3 : z 3 = f_add P (f_add P (z 1) (z 1)) (z 1). Proof. rewrite <- !fz_add. reflexivity. Qed.
Lemma z4 : z 4 = f_mul P (z 2) (z 2). Proof. rewrite <- !fz_mul. reflexivity. Qed.
Lemma z8 : z 8 = f_mul P (f_mul P (z 2) (z 2)) (z 2). Proof. rewrite <- !fz_mul. reflexivity. Qed.
Ltac zr := rewrite ?fz_sub, ?fz_mul, ?z_red, ?fz_sub, ?fz_mul, ?z_red, ?fz_sub, ?fz_mul, ?z_red, ?fz_sub, ?fz_mul, ?z_red, ?fz_sub, ?fz_mul, ?z_red.
Lemma jd_ok s A : jz s A -> jz (jd s) (eadd A A).
Proof.
  destruct s as [[X Y] Z]. intros [J N]. unfold jd. cbv zeta. unfold jz.
  set (X3 := red_p256 (3 * red_p256 (X * X) * (3 * red_p256 (X * X)) - _)). set (Y3 := red_p256 (_ - 8 * _)). set (Z3 := red_p256 (2 * _)).
  assert (R : jac (z X3) (z Y3) (z Z3) (proj1_sig (eadd A A))).
  { apply (jac_dbl F (z 0) (z 1) (f_add P) (f_mul P) (f_sub P) (f_opp P) (f_div P) (f_inv P) FTH (FID P prime_p256k1) (FD P) (z 7) (two_nz P prime_p256k1 p_gt3) sec_nt (z X) (z Y) (z Z) (proj1_sig A)); [exact (proj2_sig A)|exact J|exact N|..].
    - unfold X3. zr. rewrite z3, z4, z2. ring.
    - unfold Y3. zr. rewrite z3, z8, z4, z2. ring.
    - unfold Z3. zr. rewrite z2. ring. }
  split; [exact R|]. intro K. unfold Z3 in K. rewrite z_red, !fz_mul in K. apply (FID P prime_p256k1) in K as [K|K]; [exact (two_nz P prime_p256k1 p_gt3 (eq_trans (eq_sym z2) K))|].
  apply (FID P prime_p256k1) in K as [K|K]; [|contradiction]. revert K. exact (jac_y F (z 0) (f_add P) (f_mul P) (FID P prime_p256k1) (z 7) sec_nt (z X) (z Y) (z Z) (proj1_sig A) (proj2_sig A) J N).
Qed.
Lemma one_nz : z 1 <> z 0. Proof. intro H; apply fz_inj in H; discriminate H. Qed.
Lemma jac1 x y : jac (z x) (z y) (z 1) (Some (z x, z y)).
Proof. split; [intro H; apply fz_inj in H; discriminate H|]. split; ring. Qed.
Lemma jm_ok s A q (B : E) s' : jz s A -> proj1_sig B = Some (z (fst q), z (snd q)) -> jm s q = Some s' -> jz s' (eadd A B).
Proof.
  destruct s as [[X Y] Z], q as [x y]. intros [J N] HB. unfold jm. cbv zeta. cbn [fst snd] in HB.
  set (h := red_p256 (x * red_p256 (Z * Z)) - X). set (r := 2 * (red_p256 (y * _) - Y)).
  destruct (Z.eqb_spec (h mod P) 0) as [H0|H0]; [intro K; discriminate K|].
  set (X3 := red_p256 (r * r - _ - _)). set (Y3 := red_p256 (_ - 8 * (Y * _))). set (Z3 := red_p256 (2 * (Z * h))). intro K. assert (S' : s' = (X3, Y3, Z3)) by congruence. rewrite S'. clear K S'. unfold jz.
  assert (Hh : z h <> z 0). { intro Q. apply H0. apply fz_inj in Q. rewrite Q. apply Zmod_0_l. }
  assert (R : jac (z X3) (z Y3) (z Z3) (proj1_sig (eadd A B))).
  { change (proj1_sig (eadd A B)) with (wadd F (z 0) (z 1) (f_add P) (f_mul P) (f_sub P) (f_div P) (FD P) (proj1_sig A) (proj1_sig B)). rewrite HB.
    apply (jac_add F (z 0) (z 1) (f_add P) (f_mul P) (f_sub P) (f_opp P) (f_div P) (f_inv P) FTH (FID P prime_p256k1) (FD P) (two_nz P prime_p256k1 p_gt3) (z X) (z Y) (z Z) (proj1_sig A) (z x) (z y) (z 1) (Some (z x, z y)) (z h) (z r)); [exact J|apply jac1|exact N|exact one_nz|..].
    - unfold h. zr. ring.
    - unfold r. zr. rewrite z2. ring.
    - exact Hh.
    - unfold X3. zr. rewrite z8, z4, z2. ring.
    - unfold Y3. zr. rewrite z8, z4, z2. ring.
    - unfold Z3. zr. rewrite z2. ring. }
  split; [exact R|]. intro K. unfold Z3 in K. rewrite z_red, !fz_mul in K. apply (FID P prime_p256k1) in K as [K|K]; [exact (two_nz P prime_p256k1 p_gt3 (eq_trans (eq_sym z2) K))|].
  apply (FID P prime_p256k1) in K as [K|K]; contradiction.
Qed.
Lemma jrun_ok : forall l i j s i' j' s', jz s (lc i j) -> jrun l i j s = Some (i', j', s') -> jz s' (lc i' j').
Proof.
  induction l as [|d l IH]; intros i j s i' j' s' J H; cbn [jrun] in H; [injection H as -> -> ->; exact J|].
  apply jd_ok in J. rewrite lc_dbl in J. destruct (tab d) as [[[i0 j0] q]|] eqn:T; [|exact (IH _ _ _ _ _ _ J H)].
  destruct (jm (jd s) q) as [s1|] eqn:M; [|discriminate H]. apply tab_ok in T. apply (jm_ok _ _ _ _ _ J T) in M. rewrite lc_add in M. exact (IH _ _ _ _ _ _ M H).
Qed.
Lemma jz_eq s A x y (B : E) : jz s A -> proj1_sig B = Some (z x, z y) -> (let '(X, Y, Z) := s in ((X - x * (Z * Z)) mod P =? 0) && ((Y - y * (Z * Z * Z)) mod P =? 0) = true) -> A = B.
Proof.
  destruct s as [[X Y] Z]. intros [J N] HB H. apply andb_prop in H as [H1 H2]. apply Z.eqb_eq in H1, H2. apply e_eq. rewrite HB.
  apply Zmod_divide in H1; [|discriminate]. apply Zmod_divide in H2; [|discriminate].
  apply (jac_inj F (z 0) (z 1) (f_add P) (f_mul P) (f_sub P) (f_opp P) (f_div P) (f_inv P) FTH (FID P prime_p256k1) (z 7) (two_nz P prime_p256k1 p_gt3) sec_nt (z X) (z Y) (z Z)); [exact J|]. split; [exact N|].
  rewrite <- !fz_mul. split; apply z_cong; assumption.
Qed.
Lemma relation_gen l : rel_check l = true -> lc a1_256 b1_256 = ezero.
Proof.
  intro H. unfold rel_check, fin_check in H. destruct (jrun l 0 (- 1) (gx1, gyn, 1)) as [[[i j] s]|] eqn:R; [|discriminate H].
  assert (J0 : jz (gx1, gyn, 1) (lc 0 (- 1))).
  { assert (T := tab_ok 3 0 (- 1) (gx1, gyn) eq_refl). cbn [fst snd] in T. split; [rewrite T; apply jac1|exact one_nz]. }
  apply (jrun_ok _ _ _ _ _ _ _ J0) in R. apply jd_ok in R. rewrite lc_dbl in R. assert (T := tab_ok 4 (- 1) (- 1) (gx2, gy256) eq_refl). cbn [fst snd] in T.
  destruct (jd s) as [[X Y] Z] eqn:S. rewrite <- !andb_assoc in H. apply andb_prop in H as [Hi H]. apply andb_prop in H as [Hj H]. apply Z.eqb_eq in Hi, Hj.
  assert (Q := jz_eq _ _ _ _ _ R T H). rewrite <- Hi, <- Hj. rewrite <- lc_add, Q. transitivity (eadd (lc (- 1) (- 1)) (eneg (lc (- 1) (- 1)))); [f_equal; symmetry; exact (lc_neg (- 1) (- 1))|]. apply EV.
Qed.
Theorem relation : lc a1_256 b1_256 = ezero. Proof. exact (relation_gen chain rel_ok). Qed.
Lemma g_nz : G <> ezero. Proof. intro H. apply (f_equal (@proj1_sig _ _)) in H. discriminate H. Qed.
Lemma norm_n : a1_256 * a1_256 - a1_256 * b1_256 + b1_256 * b1_256 = n256k1. Proof. vm_compute. reflexivity. Qed.
Theorem g_order : zm n256k1 G = ezero.
Proof. rewrite <- norm_n. exact (norm_kill P 7 prime_p256k1 p_gt3 sec_nt (z beta256) beta3 G a1_256 b1_256 beta2 relation). Qed.
Lemma p_3n : 2 * P + 1 < 3 * n256k1. Proof. vm_compute. reflexivity. Qed.
(** the curve has exactly N points *)
Theorem sec_order : Z.of_nat (length (e_all P 7)) = n256k1.
Proof. exact (curve_order P 7 prime_p256k1 p_gt3 sec_nt n256k1 G prime_n256k1 p_3n g_nz g_order). Qed.
(** they are the multiples of the base point *)
Theorem sec_cyclic A : exists k, 0 <= k < n256k1 /\ A = zm k G.
Proof. exact (curve_cyclic P 7 prime_p256k1 p_gt3 sec_nt n256k1 G prime_n256k1 p_3n g_nz g_order A). Qed.
Theorem sec_kill A : zm n256k1 A = ezero.
Proof. exact (curve_kill P 7 prime_p256k1 p_gt3 sec_nt n256k1 G prime_n256k1 p_3n g_nz g_order A). Qed.
(** (x, y) -> (beta x, y) multiplies by lambda *)
Lemma lam_rel : (a1_256 + b1_256 * lam256) mod n256k1 = 0. Proof. vm_compute. reflexivity. Qed.
Lemma b1_nz : b1_256 mod n256k1 <> 0. Proof. vm_compute. congruence. Qed.
Theorem sec_lambda A : phi A = zm lam256 A.
Proof. exact (phi_lambda P 7 prime_p256k1 p_gt3 sec_nt n256k1 G prime_n256k1 p_3n g_nz g_order (z beta256) beta3 a1_256 b1_256 lam256 relation lam_rel b1_nz A). Qed.
