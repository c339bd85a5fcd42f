(** SecpMul.v -- conversions, splitK, NAF and the loops of ScalarMult and ScalarBaseMult (btcec.go): what they compute. *)
From Verif Require Import Base BigInt NumTh FieldP AbGroup AbZ WGroup WCurve SecpField SecpFieldThm SecpNorm SecpOps SecpPrimes PropSecpField Secp256k1 SecpCurve SecpJac PropSecp.
From Coq Require Import Znumtheory Field.
Add Field FpM : FTH.
Notation ZMA := (zm_add E eadd ezero eneg EC EA EI EV). Notation ZMM := (zm_mul E eadd ezero eneg EC EA EI EV). Notation ZM0 := (zm_0 E eadd ezero eneg EC EA EI EV).
Notation ZM1 := (zm_1 E eadd ezero eneg EC EA EI EV). Notation ZMO := (zm_opp E eadd ezero eneg EC EA EI EV). Notation ZM2 := (zm_2 E eadd ezero eneg EC EA EI EV).
Notation ZMS := (zm_sum E eadd ezero eneg EC EA EI EV). Notation ZMN := (zm_neg E eadd ezero eneg EC EA EI EV). Notation ZMZ := (zm_zero E eadd ezero eneg EC EA EI EV).

(** ** big.Int to field value and back *)
Lemma to_fe_ok x : 0 <= x < 2 ^ 256 -> rp 1 (to_fe x) (z x).
Proof.
  intro H. unfold to_fe. destruct (set_slice_ok (to_be x)) as [M V].
  - apply to_be_length. change (256 ^ Z.of_nat 32) with (2 ^ 256). lia.
  - split; [lia|]. split; [exact M|]. rewrite V, of_be_to_be_nonneg by lia. reflexivity.
Qed.
Lemma inv_v a u : rp 1 a u -> u <> z0 -> rp 1 (fe_inv a) (f_inv P u).
Proof.
  intros (_ & M & <-) N. destruct (C55_inverse a) as (MI & I & _); [apply (mag_mono 1 8); [lia|exact M]|]. split; [lia|]. split; [exact MI|].
  assert (N' : fval a mod P <> 0). { intro K. apply N. apply fz_mod. rewrite K. reflexivity. }
  specialize (I N'). assert (Q : fm (v a) (v (fe_inv a)) = z1). { rewrite <- fz_mul. apply fz_mod. exact I. }
  transitivity (fm (fm (f_inv P (v a)) (v a)) (v (fe_inv a))); [|transitivity (fm (f_inv P (v a)) (fm (v a) (v (fe_inv a)))); [ring|rewrite Q; ring]].
  rewrite (f_inv_l P prime_p256k1 _ N). ring.
Qed.
Lemma inv_0 a : rp 1 a z0 -> rp 1 (fe_inv a) z0.
Proof.
  intros (_ & M & Z0). destruct (C55_inverse a) as (MI & _ & I); [apply (mag_mono 1 8); [lia|exact M]|]. split; [lia|]. split; [exact MI|].
  assert (Q : fval a mod P = 0). { apply fz_inj in Z0. exact Z0. } specialize (I Q).
  destruct (norm_v (fe_inv a)) as [_ V]; [apply (mag_mono 1 63); [lia|exact MI]|]. rewrite <- V, I. reflexivity.
Qed.
Lemma bytes_v a u : cn a u -> of_be (fe_bytes a) = fv P u.
Proof. intros [C <-]. rewrite (bytes_ok a C). symmetry. apply fv_fz. apply canon_mag, C. Qed.
Local Opaque fe_add fe_neg fe_mul fe_sq fe_mul_int fe_add_int fe_norm fe_is_zero fe_eqb fe_int fe_inv fe_bytes.
Lemma to_affine_rep q X Y Z : jrep q X Y Z -> to_affine q =
  (if fp_dec P Z z0 then (0, 0) else (fv P (fm X (fm (f_inv P Z) (f_inv P Z))), fv P (fm Y (fm (fm (f_inv P Z) (f_inv P Z)) (f_inv P Z))))).
Proof.
  destruct q as [[x y] zz]. intros (Hx & Hy & Hz & _). unfold to_affine. cbv zeta. destruct (fp_dec P Z z0) as [Z0|Z0].
  - subst Z. apply inv_0 in Hz. set (zi := fe_inv zz) in *. clearbody zi. apply f_equal2.
    + erewrite bytes_v; [|eapply cn_eq; [eapply cn_norm; [rps|reflexivity]|instantiate (1 := z0); ring]]. reflexivity.
    + erewrite bytes_v; [|eapply cn_eq; [eapply cn_norm; [rps|reflexivity]|instantiate (1 := z0); ring]]. reflexivity.
  - assert (I := inv_v zz Z Hz Z0). set (zi := fe_inv zz) in *. clearbody zi. apply f_equal2; apply bytes_v; (eapply cn_norm; [rps|reflexivity]).
Qed.
(** fieldJacobianToBigAffine *)
Theorem to_affine_ok q A : jinv q A -> to_affine q = aff A.
Proof.
  intros (X & Y & Z & R & J). rewrite (to_affine_rep q X Y Z R). unfold aff. destruct (proj1_sig A) as [[x y]|]; cbn [WGroup.jac] in J.
  - destruct J as (N & -> & ->). destruct (fp_dec P Z z0) as [K|_]; [contradiction|]. apply f_equal2; f_equal; field; exact N.
  - destruct (fp_dec P Z z0) as [_|K]; [reflexivity|contradiction].
Qed.
(** an affine pair as Jacobian coordinates with z = 1 *)
Lemma on_rep x y : 0 <= x < 2 ^ 256 -> 0 <= y < 2 ^ 256 -> jrep (to_fe x, to_fe y, fe_int 1) (z x) (z y) z1.
Proof. intros X Y. apply jrep_intro; [apply to_fe_ok, X|eapply rp_up; [apply to_fe_ok, Y|reflexivity]|exact (cn_rp _ _ (cn_int 1 ltac:(lia)))|exact one_nz]. Qed.
Lemma P_lt : P < 2 ^ 256. Proof. reflexivity. Qed.
Lemma aff_rep (A : E) x y : A <> ezero -> aff A = (x, y) -> 0 <= x < P /\ 0 <= y < P /\ y <> 0 /\ jac (z x) (z y) z1 (proj1_sig A).
Proof.
  intros N H. unfold aff in H. pose proof (proj2_sig A) as OA. destruct (proj1_sig A) as [[x' y']|] eqn:EA; [|destruct N; apply e_eq; exact EA].
  injection H as <- <-. split; [apply fv_range, prime_p256k1|]. split; [apply fv_range, prime_p256k1|]. cbn [onp] in OA. split.
  - intro K. apply (sec_nt _ _ OA). rewrite <- (fz_fv P y'), K. reflexivity.
  - rewrite !fz_fv. split; [exact one_nz|]. split; ring.
Qed.
Lemma aff_jinv (A : E) x y : A <> ezero -> aff A = (x, y) -> jinv (to_fe x, to_fe y, fe_int 1) A.
Proof. intros N H. destruct (aff_rep A x y N H) as (X & Y & _ & J). pose proof P_lt. exists (z x), (z y), z1. split; [apply on_rep; lia|exact J]. Qed.
Lemma ez_dec (A : E) : A = ezero \/ A <> ezero.
Proof. destruct (proj1_sig A) as [[x y]|] eqn:H; [right; intro K; rewrite K in H; discriminate H|left; apply e_eq; exact H]. Qed.

(** ** Add and Double *)
Theorem s_add_ok A B : s_add (aff A) (aff B) = aff (eadd A B).
Proof.
  destruct (ez_dec A) as [-> |NA]; [rewrite EI; unfold s_add; rewrite aff_zero; destruct (aff B); reflexivity|].
  destruct (aff A) as [x1 y1] eqn:HA. destruct (aff_rep A x1 y1 NA HA) as (_ & _ & Y1 & _).
  destruct (ez_dec B) as [-> |NB].
  { rewrite EC, EI, aff_zero. unfold s_add. rewrite (proj2 (Z.eqb_neq y1 0) Y1), andb_false_r. symmetry. exact HA. }
  destruct (aff B) as [x2 y2] eqn:HB. destruct (aff_rep B x2 y2 NB HB) as (X2 & Y2' & Y2 & J2). pose proof P_lt as PL. unfold s_add.
  rewrite (proj2 (Z.eqb_neq y1 0) Y1), (proj2 (Z.eqb_neq y2 0) Y2), !andb_false_r. apply to_affine_ok.
  apply (add_jac_ok _ _ A B (z x2) (z y2) z1); [exact (aff_jinv A x1 y1 NA HA)|apply on_rep; lia|exact J2].
Qed.
Theorem s_double_ok A : s_double (aff A) = aff (eadd A A).
Proof.
  destruct (ez_dec A) as [-> |NA]; [rewrite EI; reflexivity|]. destruct (aff A) as [x1 y1] eqn:HA. destruct (aff_rep A x1 y1 NA HA) as (_ & _ & Y1 & _).
  unfold s_double. rewrite (proj2 (Z.eqb_neq y1 0) Y1). apply to_affine_ok, dbl_jac_ok. exact (aff_jinv A x1 y1 NA HA).
Qed.
(** IsOnCurve *)
Lemma is_on_ok x y : 0 <= x < 2 ^ 256 -> 0 <= y < 2 ^ 256 -> is_on_curve x y = true <-> (y * y) mod P = (x * x * x + 7) mod P.
Proof.
  intros X Y. unfold is_on_curve. cbv zeta. apply to_fe_ok in X. apply to_fe_ok in Y. set (fx := to_fe x) in *. set (fy := to_fe y) in *. clearbody fx fy.
  eassert (L : cn (fe_norm (fe_sq fy)) _) by (eapply cn_norm; [rps|reflexivity]). eassert (R : cn (fe_norm (fe_add_int (fe_mul (fe_sq fx) fx) 7)) _) by (eapply cn_norm; [rps|reflexivity]).
  destruct (cn_eqb _ _ _ _ L R) as [[-> K]|[-> K]]; rewrite <- !fz_mul, <- fz_add in K; split; intro Q; auto; try discriminate Q.
  - apply fz_inj in K. exact K.
  - destruct K. apply fz_mod. exact Q.
Qed.

(** ** splitK *)
Lemma rel1 : (a1_256 + b1_256 * lam256) mod n256k1 = 0. Proof. vm_compute. reflexivity. Qed.
Lemma rel2 : (a2_256 + b2_256 * lam256) mod n256k1 = 0. Proof. vm_compute. reflexivity. Qed.
Lemma split_alg k c1 c2 a1 b1 a2 b2 l q1 q2 n : a1 + b1 * l = n * q1 -> a2 + b2 * l = n * q2 ->
  (k - c1 * a1 + c2 * a2) + (c2 * b2 - c1 * b1) * l = k + n * (c2 * q2 - c1 * q1).
Proof. intros H1 H2. transitivity (k - c1 * (a1 + b1 * l) + c2 * (a2 + b2 * l)); [ring|]. rewrite H1, H2. ring. Qed.
Lemma split_ok k A : let '(k1, k2) := split_k k in eadd (zm k1 A) (zm k2 (zm lam256 A)) = zm (of_be k) A.
Proof.
  unfold split_k. cbv zeta. set (c1 := b2_256 * of_be k / n256k1). set (c2 := b1_256 * of_be k / n256k1). clearbody c1 c2. set (kk := of_be k). clearbody kk.
  rewrite <- ZMM, <- ZMA.
  assert (H1 := Z.div_mod (a1_256 + b1_256 * lam256) n256k1 ltac:(discriminate)). assert (H2 := Z.div_mod (a2_256 + b2_256 * lam256) n256k1 ltac:(discriminate)).
  rewrite rel1, Z.add_0_r in H1. rewrite rel2, Z.add_0_r in H2.
  rewrite (split_alg kk c1 c2 a1_256 b1_256 a2_256 b2_256 lam256 _ _ n256k1 H1 H2).
  rewrite ZMA, (zm_kill E eadd ezero eneg EC EA EI EV n256k1 A _ (sec_kill A)), EC. apply EI.
Qed.
Lemma reduce_ok k A : zm (of_be (modulo_reduce k)) A = zm (of_be k) A.
Proof.
  unfold modulo_reduce. destruct (32 <? length k)%nat; [|reflexivity]. rewrite of_be_to_be_nonneg by (apply Z.mod_pos_bound; reflexivity).
  apply (zm_mod E eadd ezero eneg EC EA EI EV). apply sec_kill.
Qed.

(** ** NAF *)
Definition evb (l : list Z) : Z := fold_left (fun a b => 256 * a + b) l 0.
Fixpoint evl (l : list Z) : Z := match l with [] => 0 | b :: l => b + 256 * evl l end.
Lemma evb_from l : forall a, fold_left (fun a b => 256 * a + b) l a = a * 256 ^ Z.of_nat (length l) + evb l.
Proof.
  unfold evb. induction l as [|b l IH]; intro a; cbn [fold_left length]; [change (256 ^ Z.of_nat 0) with 1; lia|]. rewrite IH, (IH (256 * 0 + b)), pow256_S. ring.
Qed.
Lemma evb_cons b l : evb (b :: l) = b * 256 ^ Z.of_nat (length l) + evb l.
Proof. unfold evb at 1. cbn [fold_left]. rewrite evb_from. f_equal. Qed.
Lemma evl_snoc l b : evl (l ++ [b]) = evl l + 256 ^ Z.of_nat (length l) * b.
Proof. induction l as [|x l IH]; cbn [app evl length]; [change (256 ^ Z.of_nat 0) with 1; lia|]. rewrite IH, pow256_S. ring. Qed.
Lemma evl_be k : evl (rev (map bz k)) = of_be k.
Proof.
  induction k as [|b k IH]; [reflexivity|]. cbn [map rev]. rewrite evl_snoc, IH, rev_length, map_length, of_be_cons. ring.
Qed.
Definition b2z (b : bool) : Z := if b then 1 else 0.
Definition naf_chk (b : Z) (nl c : bool) : bool :=
  let '(p, n, c') := naf_byte b nl c in (p - n + 256 * b2z c' =? b + b2z c) && (Z.land p n =? 0) && (0 <=? p) && (p <? 256) && (0 <=? n) && (n <? 256).
Definition bytes_all : list Z := map Z.of_nat (seq 0 256).
Lemma in_bytes b : 0 <= b < 256 -> In b bytes_all.
Proof. intro H. unfold bytes_all. apply in_map_iff. exists (Z.to_nat b). split; [lia|]. apply in_seq. lia. Qed.
Lemma naf_all : forallb (fun b => naf_chk b true true && naf_chk b true false && naf_chk b false true && naf_chk b false false) bytes_all = true.
Proof. vm_compute. reflexivity. Qed.
Lemma naf_byte_ok b nl c p n c' : 0 <= b < 256 -> naf_byte b nl c = (p, n, c') -> p - n + 256 * b2z c' = b + b2z c /\ Z.land p n = 0 /\ 0 <= p < 256 /\ 0 <= n < 256.
Proof.
  intros H E. pose proof naf_all as A. rewrite forallb_forall in A. specialize (A b (in_bytes b H)). apply andb_prop in A as [A A4]. apply andb_prop in A as [A A3]. apply andb_prop in A as [A1 A2].
  assert (K : naf_chk b nl c = true) by (destruct nl, c; assumption). clear A1 A2 A3 A4. unfold naf_chk in K. rewrite E in K.
  apply andb_prop in K as [K K6]. apply andb_prop in K as [K K5]. apply andb_prop in K as [K K4]. apply andb_prop in K as [K K3]. apply andb_prop in K as [K1 K2].
  apply Z.eqb_eq in K1, K2. apply Z.leb_le in K3, K5. apply Z.ltb_lt in K4, K6. auto.
Qed.
(** two digits of one column never both set a bit, and both are bytes *)
Definition col (p n : Z) : Prop := Z.land p n = 0 /\ 0 <= p < 256 /\ 0 <= n < 256.
Lemma naf_bytes_ok rk : forall c pos neg pos' neg' c', Forall (fun b => 0 <= b < 256) rk -> length pos = length neg -> Forall2 col pos neg -> naf_bytes rk c pos neg = (pos', neg', c') ->
  evb pos' - evb neg' + 256 ^ Z.of_nat (length pos') * b2z c' = evb pos - evb neg + 256 ^ Z.of_nat (length pos) * (evl rk + b2z c) /\
  length pos' = length neg' /\ Forall2 col pos' neg' /\ length pos' = (length rk + length pos)%nat.
Proof.
  induction rk as [|b rk IH]; intros c pos neg pos' neg' c' F L D H; cbn [naf_bytes] in H.
  - injection H as <- <- <-. cbn [evl length]. split; [ring|]. auto.
  - destruct (naf_byte b _ c) as [[p n] c1] eqn:B. apply Forall_cons_iff in F as [Fb F]. apply naf_byte_ok in B as (B1 & B2 & B3 & B4); [|exact Fb].
    apply IH in H as (H1 & H2 & H3 & H4); [|exact F|cbn [length]; now rewrite L|constructor; [split; auto|exact D]]. split; [|split; [exact H2|split; [exact H3|rewrite H4; cbn [length]; lia]]].
    rewrite H1. rewrite !evb_cons. cbn [length evl]. rewrite pow256_S, <- L. assert (E : b = p - n + 256 * b2z c1 - b2z c) by lia. rewrite E. ring.
Qed.
Lemma naf_ok k pos neg : naf k = (pos, neg) -> evb pos - evb neg = of_be k /\ length pos = length neg /\ Forall2 col pos neg.
Proof.
  unfold naf. destruct (naf_bytes _ false [] []) as [[p n] c] eqn:B. apply naf_bytes_ok in B as (B1 & B2 & B3 & _); [|apply Forall_rev, Forall_forall; intros x X; apply in_map_iff in X as (w & <- & _); apply bz_range|reflexivity|constructor].
  rewrite evl_be in B1. change (evb []) with 0 in B1. cbn [b2z length] in B1. change (256 ^ Z.of_nat 0) with 1 in B1.
  destruct c; intro H; injection H as <- <-.
  - rewrite !evb_cons. cbn [length b2z] in *. split; [lia|]. split; [now rewrite B2|]. constructor; [|exact B3]. split; [reflexivity|]. lia.
  - cbn [b2z] in B1. split; [lia|]. auto.
Qed.

(** ** the double-and-add loop *)
Fixpoint tb (n : nat) (b : Z) : Z := match n with O => 0 | S n => b2z (top b) * 2 ^ Z.of_nat n + tb n (shl8 b) end.
Lemma tb_all : forallb (fun b => tb 8 b =? b) bytes_all = true. Proof. vm_compute. reflexivity. Qed.
Lemma tb_ok b : 0 <= b < 256 -> tb 8 b = b.
Proof. intro H. pose proof tb_all as A. rewrite forallb_forall in A. apply Z.eqb_eq, A, in_bytes, H. Qed.
Lemma shl8_land a b : Z.land (shl8 a) (shl8 b) = shl8 (Z.land a b).
Proof.
  unfold shl8. change 256 with (2 ^ 8). rewrite <- !Z.land_ones by lia.
  assert (S : forall x, 2 * x = Z.shiftl x 1) by (intro x; rewrite Z.shiftl_mul_pow2 by lia; lia). rewrite !S, Z.shiftl_land. generalize (Z.shiftl a 1) (Z.shiftl b 1) (Z.ones 8). intros u w o.
  apply Z.bits_inj'. intros i _. rewrite !Z.land_spec. destruct (Z.testbit u i), (Z.testbit w i), (Z.testbit o i); reflexivity.
Qed.
Lemma top_disj a b : Z.land a b = 0 -> top a = true -> top b = true -> False.
Proof.
  unfold top. intros H A B. apply Z.eqb_eq in A, B. assert (K : Z.land (Z.land a b) 128 = 128).
  { rewrite <- Z.land_assoc, B. exact A. }
  rewrite H, Z.land_0_l in K. discriminate K.
Qed.
(** an operand of ScalarMult stands for A, and with the other y coordinate for -A *)
Definition opinv (o : opnd) (A : E) : Prop :=
  let '(x, y, yn, zz) := o in exists X Y, jrep (x, y, zz) X Y z1 /\ jrep (x, yn, zz) X (fo Y) z1 /\ jac X Y z1 (proj1_sig A) /\ jac X (fo Y) z1 (proj1_sig (eneg A)).
Lemma mix x y zz x' y' zz' X Y Y' : jrep (x, y, zz) X Y z1 -> jrep (x', y', zz') X Y' z1 -> jrep (x', y, zz') X Y z1.
Proof. intros (_ & Hy & _ & _) (Hx & _ & Hz & Hn). split; [exact Hx|]. split; [exact Hy|]. split; assumption. Qed.
Lemma add_bit_ok q o p n A B : jinv q B -> opinv o A -> ~ (p = true /\ n = true) ->
  jinv (fst (add_bit q o p n)) (eadd B (zm (b2z p - b2z n) A)) /\ opinv (snd (add_bit q o p n)) A.
Proof.
  destruct o as [[[x y] yn] zz]. intros J O D. destruct p.
  - destruct n; [destruct D; auto|]. cbn [add_bit b2z]. change (1 - 0) with 1. rewrite ZM1. destruct O as (X & Y & R1 & R2 & J1 & J2).
    destruct (add_jac_ok q (x, y, zz) B A X Y z1 J R1 J1) as [K1 K2]. destruct (add_jac q (x, y, zz)) as [q' [[x' y'] z']]. cbn [fst snd] in *. split; [exact K1|].
    exists X, Y. split; [exact K2|]. split; [exact (mix _ _ _ _ _ _ _ _ _ R2 K2)|]. split; assumption.
  - destruct n; cbn [add_bit b2z]; [change (0 - 1) with (- 1)|change (0 - 0) with 0; rewrite ZM0, EC, EI; split; [exact J|exact O]].
    change (- 1) with (- (1)). rewrite ZMO, ZM1. destruct O as (X & Y & R1 & R2 & J1 & J2).
    destruct (add_jac_ok q (x, yn, zz) B (eneg A) X (fo Y) z1 J R2 J2) as [K1 K2]. destruct (add_jac q (x, yn, zz)) as [q' [[x' y'] z']]. cbn [fst snd] in *. split; [exact K1|].
    exists X, Y. split; [exact (mix _ _ _ _ _ _ _ _ _ R1 K2)|]. split; [exact K2|]. split; assumption.
Qed.
Lemma no_top p n : Z.land p n = 0 -> ~ (top p = true /\ top n = true). Proof. intros H [A B]. exact (top_disj p n H A B). Qed.
Lemma shift_sum (Q A B : E) d e : eadd (eadd (eadd Q Q) (zm d A)) (zm e B) = eadd (zm 2 Q) (eadd (zm d A) (zm e B)).
Proof. rewrite ZM2, EA. reflexivity. Qed.
Lemma collect (Q A B : E) m d e d' e' : eadd (zm m (eadd (zm 2 Q) (eadd (zm d A) (zm e B)))) (eadd (zm d' A) (zm e' B)) = eadd (zm (2 * m) Q) (eadd (zm (d * m + d') A) (zm (e * m + e') B)).
Proof.
  rewrite !ZMS, <- !ZMM. rewrite EA. f_equal; [f_equal; ring|]. rewrite (swap4 E eadd EC EA). rewrite <- !ZMA. f_equal; f_equal; ring.
Qed.
Lemma mul_bits_ok n : forall p1 n1 p2 n2 q o1 o2 Q A B, jinv q Q -> opinv o1 A -> opinv o2 B -> Z.land p1 n1 = 0 -> Z.land p2 n2 = 0 ->
  let '(q', o1', o2') := mul_bits n p1 n1 p2 n2 (q, o1, o2) in
  jinv q' (eadd (zm (2 ^ Z.of_nat n) Q) (eadd (zm (tb n p1 - tb n n1) A) (zm (tb n p2 - tb n n2) B))) /\ opinv o1' A /\ opinv o2' B.
Proof.
  induction n as [|n IH]; intros p1 n1 p2 n2 q o1 o2 Q A B J O1 O2 D1 D2.
  - cbn [mul_bits tb]. change (2 ^ Z.of_nat 0) with 1. change (0 - 0) with 0. rewrite ZM1, !ZM0, EI, EC, EI. auto.
  - cbn [mul_bits]. apply dbl_jac_ok in J.
    destruct (add_bit_ok _ o1 (top p1) (top n1) A _ J O1 (no_top _ _ D1)) as [J1 O1']. destruct (add_bit (dbl_jac q) o1 (top p1) (top n1)) as [q1 o1']. cbn [fst snd] in *.
    destruct (add_bit_ok _ o2 (top p2) (top n2) B _ J1 O2 (no_top _ _ D2)) as [J2 O2']. destruct (add_bit q1 o2 (top p2) (top n2)) as [q2 o2']. cbn [fst snd] in *.
    rewrite shift_sum in J2.
    assert (S1 : Z.land (shl8 p1) (shl8 n1) = 0) by (rewrite shl8_land, D1; reflexivity). assert (S2 : Z.land (shl8 p2) (shl8 n2) = 0) by (rewrite shl8_land, D2; reflexivity).
    specialize (IH (shl8 p1) (shl8 n1) (shl8 p2) (shl8 n2) q2 o1' o2' _ A B J2 O1' O2' S1 S2). destruct (mul_bits n _ _ _ _ _) as [[q' o1''] o2'']. destruct IH as (IH1 & IH2 & IH3).
    split; [|split; assumption]. rewrite collect in IH1. cbn [tb]. rewrite Nat2Z.inj_succ, Z.pow_succ_r by lia.
    replace (b2z (top p1) * 2 ^ Z.of_nat n + tb n (shl8 p1) - (b2z (top n1) * 2 ^ Z.of_nat n + tb n (shl8 n1))) with ((b2z (top p1) - b2z (top n1)) * 2 ^ Z.of_nat n + (tb n (shl8 p1) - tb n (shl8 n1))) by ring.
    replace (b2z (top p2) * 2 ^ Z.of_nat n + tb n (shl8 p2) - (b2z (top n2) * 2 ^ Z.of_nat n + tb n (shl8 n2))) with ((b2z (top p2) - b2z (top n2)) * 2 ^ Z.of_nat n + (tb n (shl8 p2) - tb n (shl8 n2))) by ring.
    exact IH1.
Qed.
Lemma mul_byte_ok p1 n1 p2 n2 q o1 o2 Q A B : jinv q Q -> opinv o1 A -> opinv o2 B -> col p1 n1 -> col p2 n2 ->
  let '(q', o1', o2') := mul_bits 8 p1 n1 p2 n2 (q, o1, o2) in jinv q' (eadd (zm 256 Q) (eadd (zm (p1 - n1) A) (zm (p2 - n2) B))) /\ opinv o1' A /\ opinv o2' B.
Proof.
  intros J O1 O2 (D1 & P1 & N1) (D2 & P2 & N2). assert (K := mul_bits_ok 8 p1 n1 p2 n2 q o1 o2 Q A B J O1 O2 D1 D2).
  rewrite !tb_ok in K by assumption. exact K.
Qed.
Definition cols (m : nat) (p n : list Z) (i : nat) : Z := byte_at m p i - byte_at m n i.
Definition sumc (f : nat -> Z) (l : list nat) (a : Z) : Z := fold_left (fun a i => 256 * a + f i) l a.
Lemma collect8 (Q A B : E) d e d' e' : eadd (zm 256 (eadd Q (eadd (zm d A) (zm e B)))) (eadd (zm d' A) (zm e' B)) = eadd (zm 256 Q) (eadd (zm (256 * d + d') A) (zm (256 * e + e') B)).
Proof. rewrite !ZMS, <- !ZMM. rewrite EA. f_equal. rewrite (swap4 E eadd EC EA). rewrite <- !ZMA. reflexivity. Qed.
Lemma mul_loop_ok (f1 g1 f2 g2 : nat -> Z) l : (forall i, col (f1 i) (g1 i)) -> (forall i, col (f2 i) (g2 i)) -> forall q o1 o2 a b A B, jinv q (eadd (zm a A) (zm b B)) -> opinv o1 A -> opinv o2 B ->
  jinv (fst (fst (fold_left (fun st i => mul_bits 8 (f1 i) (g1 i) (f2 i) (g2 i) st) l (q, o1, o2)))) (eadd (zm (sumc (fun i => f1 i - g1 i) l a) A) (zm (sumc (fun i => f2 i - g2 i) l b) B)).
Proof.
  intros C1 C2. induction l as [|i l IH]; intros q o1 o2 a b A B J O1 O2; [exact J|]. cbn [fold_left]. 
  assert (K := mul_byte_ok (f1 i) (g1 i) (f2 i) (g2 i) q o1 o2 _ A B J O1 O2 (C1 i) (C2 i)). destruct (mul_bits 8 (f1 i) (g1 i) (f2 i) (g2 i) (q, o1, o2)) as [[q' o1'] o2']. destruct K as (K1 & K2 & K3).
  unfold sumc. cbn [fold_left]. apply IH; [|exact K2|exact K3]. rewrite ZMS, <- !ZMM, (swap4 E eadd EC EA), <- !ZMA in K1. exact K1.
Qed.
Lemma sumc_sub f g l : forall a b, sumc (fun i => f i - g i) l (a - b) = sumc f l a - sumc g l b.
Proof. induction l as [|i l IH]; intros a b; cbn [sumc fold_left]; [reflexivity|]. unfold sumc in *. cbn [fold_left]. rewrite <- IH. f_equal. ring. Qed.
Lemma sumc_map f l a : sumc f l a = fold_left (fun a b => 256 * a + b) (map f l) a.
Proof. unfold sumc. revert a. induction l as [|i l IH]; intro a; cbn [fold_left map]; auto. Qed.
Lemma map_nth_seq (l : list Z) : forall s, map (fun i => nth (i - s) l 0) (seq s (length l)) = l.
Proof.
  induction l as [|x l IH]; intro s; cbn [length seq map]; [reflexivity|]. rewrite Nat.sub_diag. cbn [nth]. f_equal. rewrite <- (IH (S s)) at 2. apply map_ext_in. intros i I. apply in_seq in I.
  replace (i - s)%nat with (S (i - S s)) by lia. reflexivity.
Qed.
Lemma byte_at_map m l : (length l <= m)%nat -> map (byte_at m l) (seq 0 m) = repeat 0 (m - length l) ++ l.
Proof.
  intro H. replace m with ((m - length l) + length l)%nat at 2 by lia. rewrite seq_app, map_app. f_equal.
  - assert (K : forall s k, (s + k <= m - length l)%nat -> map (byte_at m l) (seq s k) = repeat 0 k).
    { intros s k. revert s. induction k as [|k IH]; intros s L; cbn [seq map repeat]; [reflexivity|]. f_equal; [|apply IH; lia]. unfold byte_at. destruct (Nat.ltb_spec s (m - length l)); [reflexivity|lia]. }
    apply K. lia.
  - cbn [Nat.add]. transitivity (map (fun i => nth (i - (m - length l)) l 0) (seq (m - length l) (length l))); [|apply map_nth_seq]. apply map_ext_in. intros i I. apply in_seq in I. unfold byte_at. destruct (Nat.ltb_spec i (m - length l)); [lia|reflexivity].
Qed.
Lemma evb_zeros k l : evb (repeat 0 k ++ l) = evb l.
Proof. induction k as [|k IH]; [reflexivity|]. cbn [repeat app]. rewrite evb_cons, IH. ring. Qed.
Lemma sumc_bytes m l : (length l <= m)%nat -> sumc (byte_at m l) (seq 0 m) 0 = evb l.
Proof. intro H. rewrite sumc_map, byte_at_map by exact H. apply evb_zeros. Qed.
Lemma col_at m p n : Forall2 col p n -> forall i, col (byte_at m p i) (byte_at m n i).
Proof.
  intros F i. assert (L : length p = length n) by (clear i; induction F; cbn [length]; auto). unfold byte_at. rewrite L. assert (Z0 : col 0 0) by (split; [reflexivity|lia]). destruct (i <? m - length n)%nat; [exact Z0|].
  generalize (i - (m - length n))%nat. clear L i. induction F as [|a b p n H F IH]; intros [|j]; cbn [nth]; auto.
Qed.
(** ** the operands *)
Lemma op_intro x y yn X Y (A : E) (flip : bool) : rp 1 x X -> rp 1 y Y -> rp 2 yn (fo Y) -> jac X Y z1 (proj1_sig A) ->
  opinv (if flip then (x, yn, y, fe_int 1) else (x, y, yn, fe_int 1)) (if flip then eneg A else A).
Proof.
  intros Hx Hy Hn J. assert (O := cn_rp _ _ (cn_int 1 ltac:(lia))). assert (Hy' := rp_up 1 2 _ _ Hy eq_refl).
  assert (R1 : jrep (x, y, fe_int 1) X Y z1) by (apply jrep_intro; auto using one_nz). assert (R2 : jrep (x, yn, fe_int 1) X (fo Y) z1) by (apply jrep_intro; auto using one_nz).
  assert (NJ : forall (A : E) Y, jac X Y z1 (proj1_sig A) -> jac X (fo Y) z1 (proj1_sig (eneg A))).
  { clear. intros A Y. unfold WCurve.eneg, gneg. cbn [proj1_sig]. destruct (proj1_sig A) as [[a b]|]; cbn [wneg WGroup.jac]; [|auto]. intros (N & -> & ->). split; [exact N|]. split; [reflexivity|ring]. }
  assert (EY : fo (fo Y) = Y) by ring.
  destruct flip.
  - exists X, (fo Y). rewrite EY. split; [exact R2|]. split; [exact R1|]. split; [exact (NJ A Y J)|]. assert (K := NJ _ _ (NJ A Y J)). rewrite EY in K. exact K.
  - exists X, Y. split; [exact R1|]. split; [exact R2|]. split; [exact J|exact (NJ A Y J)].
Qed.
Lemma flip_abs k (A : E) : zm (Z.abs k) (if k <? 0 then eneg A else A) = zm k A.
Proof. destruct (Z.ltb_spec k 0) as [H|H]; [|now rewrite Z.abs_eq by exact H]. rewrite Z.abs_neq by lia. rewrite ZMN, <- ZMO. f_equal. lia. Qed.
Lemma phi_jac X Y (A : E) : jac X Y z1 (proj1_sig A) -> jac (fm X (z beta256)) Y z1 (proj1_sig (phi A)).
Proof. unfold WCurve.phi. cbn [proj1_sig]. destruct (proj1_sig A) as [[x y]|]; cbn [phi0 WGroup.jac]; [|auto]. intros (N & -> & ->). split; [exact N|]. split; [ring|reflexivity]. Qed.
Local Opaque to_fe fe_mul fe_neg naf split_k.
(** ScalarMult *)
Theorem s_mul_rep x y k (A : E) : 0 <= x < 2 ^ 256 -> 0 <= y < 2 ^ 256 -> jac (z x) (z y) z1 (proj1_sig A) -> s_mul (x, y) k = aff (zm (of_be k) A).
Proof.
  intros Hx Hy J. rewrite <- (reduce_ok k A). unfold s_mul. set (kr := modulo_reduce k). clearbody kr. clear k.
  assert (S := split_ok kr A). destruct (split_k kr) as [k1 k2]. rewrite <- S. clear S. rewrite <- sec_lambda. cbn [fst snd].
  apply to_fe_ok in Hx. apply to_fe_ok in Hy. assert (Hb : rp 1 (to_fe beta256) (z beta256)) by (apply to_fe_ok; split; [discriminate|reflexivity]).
  set (px := to_fe x) in *. set (py := to_fe y) in *. set (pb := to_fe beta256) in *. clearbody px py pb.
  assert (Hn : rp 2 (fe_neg py 1) (fo (z y))) by (exact (rp_neg 1 py (z y) 1 Hy eq_refl)). assert (H2 : rp 1 (fe_mul px pb) (fm (z x) (z beta256))) by (eapply rp_mul; [exact Hx|exact Hb|reflexivity]).
  assert (O1 := op_intro px py (fe_neg py 1) _ _ A (k1 <? 0) Hx Hy Hn J). assert (O2 := op_intro _ py (fe_neg py 1) _ _ (phi A) (k2 <? 0) H2 Hy Hn (phi_jac _ _ _ J)).
  match type of O1 with opinv ?t _ => set (o1 := t) in * end. match type of O2 with opinv ?t _ => set (o2 := t) in * end.
  match goal with |- context [fold_left _ _ (jzero, ?a, ?b)] => change a with o1; change b with o2 end. clearbody o1 o2.
  destruct (naf (to_be k1)) as [p1 n1] eqn:N1. destruct (naf (to_be k2)) as [p2 n2] eqn:N2. apply naf_ok in N1 as (V1 & L1 & C1). apply naf_ok in N2 as (V2 & L2 & C2). rewrite of_be_to_be in V1, V2.
  set (m := Nat.max (length p1) (length p2)).
  assert (J0 : jinv jzero (eadd (zm 0 (if k1 <? 0 then eneg A else A)) (zm 0 (if k2 <? 0 then eneg (phi A) else phi A)))) by (apply jzero_inv; rewrite !ZM0; reflexivity).
  assert (K := mul_loop_ok (byte_at m p1) (byte_at m n1) (byte_at m p2) (byte_at m n2) (seq 0 m) (col_at m p1 n1 C1) (col_at m p2 n2 C2) jzero o1 o2 0 0 _ _ J0 O1 O2).
  assert (T : forall st : jp * opnd * opnd, (let '(q, _, _) := st in to_affine q) = to_affine (fst (fst st))) by (now intros [[? ?] ?]).
  etransitivity; [apply T|]. etransitivity; [exact (to_affine_ok _ _ K)|]. f_equal.
  assert (SS : forall f g l, sumc (fun i => f i - g i) l 0 = sumc f l 0 - sumc g l 0) by (intros f g l; exact (sumc_sub f g l 0 0)). rewrite !SS. rewrite !sumc_bytes by (unfold m; lia). rewrite V1, V2, !flip_abs. reflexivity.
Qed.
Theorem s_mul_ok A k : A <> ezero -> s_mul (aff A) k = aff (zm (of_be k) A).
Proof. intro N. destruct (aff A) as [x y] eqn:H. destruct (aff_rep A x y N H) as (X & Y & _ & J). pose proof P_lt. apply s_mul_rep; [lia|lia|exact J]. Qed.

(** ** ScalarBaseMult and its table *)
Definition table_ok (T : table) : Prop := length T = 32%nat /\
  forall r b, (r < 32)%nat -> 0 <= b < 256 -> exists row p, nth_error T r = Some row /\ nth_error row (Z.to_nat b) = Some p /\ jinv p (zm (b * 256 ^ Z.of_nat (31 - r)) G).
Lemma reduce_len k : (length (modulo_reduce k) <= 32)%nat.
Proof.
  unfold modulo_reduce. destruct (Nat.ltb_spec 32 (length k)); [|lia]. apply to_be_length. change (256 ^ Z.of_nat 32) with (2 ^ 256).
  assert (B := Z.mod_pos_bound (of_be k) n256k1 ltac:(reflexivity)). assert (n256k1 < 2 ^ 256) by reflexivity. rewrite Z.abs_eq by lia. lia.
Qed.
Lemma jinv_rep p A : jinv p A -> exists X Y Z, jrep p X Y Z /\ jac X Y Z (proj1_sig A). Proof. auto. Qed.
Lemma add_inv p q A B : jinv p A -> jinv q B -> jinv (fst (add_jac p q)) (eadd A B) /\ jinv (snd (add_jac p q)) B.
Proof. intros J (X & Y & Z & R & K). destruct (add_jac_ok p q A B X Y Z J R K) as [H1 H2]. split; [exact H1|]. exists X, Y, Z. split; assumption. Qed.
Lemma base_loop_ok T : table_ok T -> forall k r q Q, (length k + r = 32)%nat -> jinv q Q -> exists q', base_loop T r k q = Some q' /\ jinv q' (eadd Q (zm (of_be k) G)).
Proof.
  intros [_ HT]. induction k as [|b k IH]; intros r q Q L J; cbn [base_loop length] in *.
  - exists q. split; [reflexivity|]. change (of_be []) with 0. rewrite ZM0, EC, EI. exact J.
  - destruct (HT r (bz b) ltac:(lia) (bz_range b)) as (row & p & -> & -> & JP). destruct (add_inv q p Q _ J JP) as [K _].
    destruct (IH (S r) _ _ ltac:(lia) K) as (q' & E & K'). exists q'. split; [exact E|]. rewrite EA, <- ZMA in K'. rewrite of_be_cons. replace (length k) with (31 - r)%nat by lia. exact K'.
Qed.
Theorem s_base_mul_ok T k : table_ok T -> s_base_mul T k = Some (aff (zm (of_be k) G)).
Proof.
  intro HT. rewrite <- (reduce_ok k G). unfold s_base_mul. cbv zeta. assert (L := reduce_len k). set (kr := modulo_reduce k) in *. clearbody kr. destruct HT as [LT HT']. rewrite LT.
  destruct (Nat.ltb_spec 32 (length kr)); [lia|]. destruct (base_loop_ok T (conj LT HT') kr (32 - length kr) jzero ezero ltac:(lia) (jzero_inv ezero eq_refl)) as (q & -> & J).
  cbn [option_map]. rewrite (to_affine_ok q _ J), EI. reflexivity.
Qed.
Fixpoint psok (ps : list jp) (b : Z) : Prop := match ps with [] => True | p :: ps => jinv p (zm b G) /\ psok ps (2 * b) end.
Lemma mod_split i n : 0 <= i -> i mod 2 ^ Z.of_nat (S n) = b2z (Z.odd i) + 2 * ((i / 2) mod 2 ^ Z.of_nat n).
Proof.
  intro H. rewrite Nat2Z.inj_succ, Z.pow_succ_r by lia. rewrite Z.rem_mul_r by (try apply Z.pow_pos_nonneg; lia). rewrite Zmod_odd. reflexivity.
Qed.
Lemma window_ok ps : forall i q b Q, 0 <= i -> jinv q Q -> psok ps b ->
  jinv (fst (window ps i q)) (eadd Q (zm (i mod 2 ^ Z.of_nat (length ps) * b) G)) /\ psok (snd (window ps i q)) b /\ length (snd (window ps i q)) = length ps.
Proof.
  induction ps as [|p ps IH]; intros i q b Q Hi J K.
  - cbn [window fst snd length]. change (2 ^ Z.of_nat 0) with 1. rewrite Z.mod_1_r, Z.mul_0_l, ZM0, EC, EI. auto.
  - destruct K as [K1 K2]. cbn [window]. assert (H : exists q' p', (if Z.odd i then add_jac q p else (q, p)) = (q', p') /\ jinv q' (eadd Q (zm (b2z (Z.odd i) * b) G)) /\ jinv p' (zm b G)).
    { destruct (Z.odd i).
      - destruct (add_inv q p Q _ J K1) as [A1 A2]. destruct (add_jac q p) as [q' p']. exists q', p'. cbn [b2z]. rewrite Z.mul_1_l. auto.
      - exists q, p. cbn [b2z]. rewrite Z.mul_0_l, ZM0, EC, EI. auto. }
    destruct H as (q' & p' & -> & J' & K1'). destruct (IH (i / 2) q' (2 * b) _ ltac:(apply Z.div_pos; lia) J' K2) as (A1 & A2 & A3).
    destruct (window ps (i / 2) q') as [q'' ps'']. cbn [fst snd length] in *. split; [|split; [split; assumption|now rewrite A3]].
    rewrite EA, <- ZMA in A1. rewrite mod_split by exact Hi. replace ((b2z (Z.odd i) + 2 * ((i / 2) mod 2 ^ Z.of_nat (length ps))) * b) with (b2z (Z.odd i) * b + (i / 2) mod 2 ^ Z.of_nat (length ps) * (2 * b)) by ring. exact A1.
Qed.
Lemma row_ok n : forall i ps b, 0 <= i -> psok ps b -> forall j, (j < n)%nat -> exists p, nth_error (row n i ps) j = Some p /\ jinv p (zm ((i + Z.of_nat j) mod 2 ^ Z.of_nat (length ps) * b) G).
Proof.
  induction n as [|n IH]; intros i ps b Hi K j Hj; [lia|]. cbn [row]. destruct (window_ok ps i jzero b ezero Hi (jzero_inv ezero eq_refl) K) as (A1 & A2 & A3). destruct (window ps i jzero) as [q ps']. cbn [fst snd] in *.
  destruct j as [|j]; cbn [nth_error].
  - exists q. split; [reflexivity|]. rewrite EI in A1. rewrite Z.add_0_r. exact A1.
  - destruct (IH (i + 1) ps' b ltac:(lia) A2 j ltac:(lia)) as (p & E & J). exists p. split; [exact E|]. rewrite A3 in J. replace (i + Z.of_nat (S j)) with (i + 1 + Z.of_nat j) by lia. exact J.
Qed.
Lemma dbl_points_ok n : forall p b, jinv p (zm b G) -> psok (dbl_points n p) b.
Proof.
  induction n as [|n IH]; intros p b J; cbn [dbl_points psok]; [exact I|]. split; [exact J|]. apply IH. apply dbl_jac_ok in J. rewrite <- ZMA in J. replace (2 * b) with (b + b) by ring. exact J.
Qed.
Lemma dbl_points_len n : forall p, length (dbl_points n p) = n. Proof. induction n as [|n IH]; intro p; cbn [dbl_points length]; auto. Qed.
Lemma psok_skip k : forall ps b, psok ps b -> psok (skipn k ps) (2 ^ Z.of_nat k * b).
Proof.
  induction k as [|k IH]; intros ps b K; [cbn [skipn]; change (2 ^ Z.of_nat 0) with 1; rewrite Z.mul_1_l; exact K|]. destruct ps as [|p ps]; [exact I|]. destruct K as [_ K]. cbn [skipn]. rewrite Nat2Z.inj_succ, Z.pow_succ_r by lia.
  replace (2 * 2 ^ Z.of_nat k * b) with (2 ^ Z.of_nat k * (2 * b)) by ring. apply IH, K.
Qed.
Lemma psok_first k : forall ps b, psok ps b -> psok (firstn k ps) b.
Proof. induction k as [|k IH]; intros ps b K; [exact I|]. destruct ps as [|p ps]; [exact I|]. destruct K as [K1 K2]. split; [exact K1|]. apply IH, K2. Qed.
Lemma g_jinv : jinv g_jac G. Proof. exact (aff_jinv G gx256 gy256 g_nz aff_G). Qed.
Lemma nth_map_seq (A : Type) (f : nat -> A) : forall n s r, (r < n)%nat -> nth_error (map f (seq s n)) r = Some (f (s + r)%nat).
Proof. induction n as [|n IH]; intros s r H; [lia|]. destruct r as [|r]; cbn [seq map nth_error]; [now rewrite Nat.add_0_r|]. rewrite IH by lia. do 2 f_equal. lia. Qed.
Local Opaque row dbl_points.
Theorem gen_table_ok : table_ok gen_table.
Proof.
  unfold gen_table. cbv zeta. split; [rewrite map_length, seq_length; reflexivity|]. intros r b Hr Hb. rewrite nth_map_seq by exact Hr. cbn [Nat.add].
  set (ps := firstn 8 (skipn (8 * (31 - r)) (dbl_points 256 g_jac))).
  assert (L : length ps = 8%nat) by (unfold ps; rewrite firstn_length, skipn_length, dbl_points_len; lia).
  assert (K : psok ps (2 ^ Z.of_nat (8 * (31 - r)) * 1)) by (apply psok_first, psok_skip, dbl_points_ok; rewrite ZM1; exact g_jinv).
  destruct (row_ok 256 0 ps _ ltac:(lia) K (Z.to_nat b) ltac:(lia)) as (p & E & J). eexists _, p. split; [reflexivity|]. split; [exact E|].
  rewrite L, Z2Nat.id, Z.add_0_l in J by lia. change (2 ^ Z.of_nat 8) with 256 in J. rewrite Z.mod_small in J by exact Hb.
  rewrite Nat2Z.inj_mul, Z.pow_mul_r, Z.mul_1_r in J by lia. change (2 ^ Z.of_nat 8) with 256 in J. exact J.
Qed.
