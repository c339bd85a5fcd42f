(** SecpZero.v -- ScalarMult (btcec.go) of the pair (0, 0), which stands for the point at infinity: the pair is not on the curve, and y = 0 negated
    is a multiple of the prime whose words are not zero, so this case is separate. *)
From Verif Require Import Base BigInt NumTh FieldP WGroup WCurve SecpField SecpFieldThm SecpNorm SecpOps SecpPrimes PropSecpField Secp256k1 SecpCurve SecpJac PropSecp SecpMul.
From Coq Require Import Znumtheory Field.
Add Field FpZ0 : FTH.
Local Opaque fe_add fe_neg fe_mul fe_sq fe_mul_int fe_add_int fe_norm fe_is_zero fe_eqb fe_int fe_inv fe_bytes.
(** x and y are multiples of the prime *)
Definition zrep (q : jp) : Prop := let '(x, y, zz) := q in rp 1 x z0 /\ rp 2 y z0 /\ exists Z, rp 1 zz Z.
Lemma jzero_z : zrep jzero. Proof. destruct jzero_rep as (A & B & C & _). split; [exact A|]. split; [exact B|]. exists z0. exact C. Qed.
Lemma dbl_z q : zrep q -> zrep (dbl_jac q).
Proof.
  destruct q as [[x y] zz]. intros (Hx & Hy & Z & Hz). unfold dbl_jac. destruct (fe_is_zero y || fe_is_zero zz); [exact jzero_z|]. cbv zeta.
  assert (Hw : rp 1 (fe_norm zz) Z) by (eapply rp_norm; [exact Hz|reflexivity]). set (w := fe_norm zz) in *. clearbody w.
  destruct (fe_eqb w (fe_int 1)).
  - unfold dbl_z1. cbv zeta. set (x3 := fe_add (fe_neg _ 16) _). eassert (X3 : rp _ x3 z0) by (subst x3; eapply rp_eq; [rps|ring]). clearbody x3.
    split; [rps|]. split; [eapply rp_up; [eapply rp_eq; [rps|ring]|reflexivity]|]. eexists. rps.
  - unfold dbl_gen. cbv zeta. set (x3 := fe_add (fe_neg _ 16) _). eassert (X3 : rp _ x3 z0) by (subst x3; eapply rp_eq; [rps|ring]). clearbody x3.
    split; [rps|]. split; [eapply rp_up; [eapply rp_eq; [rps|ring]|reflexivity]|]. eexists. rps.
Qed.
Lemma cn_same a b u : cn a u -> cn b u -> fe_eqb a b = true.
Proof. intros A B. destruct (cn_eqb _ _ _ _ A B) as [[H _]|[_ H]]; [exact H|contradiction]. Qed.
Lemma dbl_z' x y zz Z : cn x z0 -> cn y z0 -> rp 1 zz Z -> zrep (dbl_jac (x, y, zz)).
Proof. intros A B C. apply dbl_z. split; [exact (cn_rp _ _ A)|]. split; [eapply rp_up; [exact (cn_rp _ _ B)|reflexivity]|]. exists Z. exact C. Qed.
Lemma add_z p q : zrep p -> zrep q -> zrep (fst (add_jac p q)) /\ zrep (snd (add_jac p q)).
Proof.
  intros HP HQ. unfold add_jac. destruct (jinf p); [split; exact HQ|]. destruct (jinf q); [split; assumption|].
  destruct p as [[x1 y1] zz1], q as [[x2 y2] zz2]. destruct HP as (Hx1 & Hy1 & Z1 & Hz1), HQ as (Hx2 & Hy2 & Z2 & Hz2). cbv zeta.
  assert (Hw1 : rp 1 (fe_norm zz1) Z1) by (eapply rp_norm; [exact Hz1|reflexivity]). assert (Hw2 : rp 1 (fe_norm zz2) Z2) by (eapply rp_norm; [exact Hz2|reflexivity]).
  set (w1 := fe_norm zz1) in *. set (w2 := fe_norm zz2) in *. clearbody w1 w2.
  assert (U1 : cn (fe_norm x1) z0) by (eapply cn_norm; [exact Hx1|reflexivity]). assert (S1 : cn (fe_norm y1) z0) by (eapply cn_norm; [exact Hy1|reflexivity]).
  assert (U2 : cn (fe_norm x2) z0) by (eapply cn_norm; [exact Hx2|reflexivity]). assert (S2 : cn (fe_norm y2) z0) by (eapply cn_norm; [exact Hy2|reflexivity]).
  assert (N2 : zrep (fe_norm x2, fe_norm y2, w2)) by (split; [exact (cn_rp _ _ U2)|]; split; [eapply rp_up; [exact (cn_rp _ _ S2)|reflexivity]|exists Z2; exact Hw2]).
  assert (Q2 : zrep (x2, y2, w2)) by (split; [exact Hx2|]; split; [exact Hy2|exists Z2; exact Hw2]).
  destruct (fe_eqb w1 (fe_int 1) && fe_eqb w2 (fe_int 1)).
  { unfold add_ones. cbv zeta. rewrite (cn_same _ _ _ U1 U2), (cn_same _ _ _ S1 S2). cbn [fst snd]. split; [exact (dbl_z' _ _ _ _ U1 S1 Hw1)|exact N2]. }
  destruct (fe_eqb w1 w2).
  { unfold add_same_z. cbv zeta. rewrite (cn_same _ _ _ U1 U2), (cn_same _ _ _ S1 S2). cbn [fst snd]. split; [exact (dbl_z' _ _ _ _ U1 S1 Hw1)|exact N2]. }
  destruct (fe_eqb w2 (fe_int 1)); cbn [fst snd]; (split; [|exact Q2]).
  - unfold add_z2_one. cbv zeta. set (u2 := fe_norm (fe_mul x2 _)). set (s2 := fe_norm (fe_mul (fe_mul y2 _) _)).
    assert (V2 : cn u2 z0) by (subst u2; eapply cn_eq; [eapply cn_norm; [rps|reflexivity]|ring]). assert (T2 : cn s2 z0) by (subst s2; eapply cn_eq; [eapply cn_norm; [rps|reflexivity]|ring]).
    rewrite (cn_same _ _ _ U1 V2), (cn_same _ _ _ S1 T2). exact (dbl_z' _ _ _ _ U1 S1 Hw1).
  - unfold add_gen. cbv zeta. set (u1 := fe_norm (fe_mul x1 _)). set (s1 := fe_norm (fe_mul (fe_mul y1 _) _)). set (u2 := fe_norm (fe_mul x2 _)). set (s2 := fe_norm (fe_mul (fe_mul y2 _) _)).
    assert (V1 : cn u1 z0) by (subst u1; eapply cn_eq; [eapply cn_norm; [rps|reflexivity]|ring]). assert (T1 : cn s1 z0) by (subst s1; eapply cn_eq; [eapply cn_norm; [rps|reflexivity]|ring]).
    assert (V2 : cn u2 z0) by (subst u2; eapply cn_eq; [eapply cn_norm; [rps|reflexivity]|ring]). assert (T2 : cn s2 z0) by (subst s2; eapply cn_eq; [eapply cn_norm; [rps|reflexivity]|ring]).
    rewrite (cn_same _ _ _ V1 V2), (cn_same _ _ _ T1 T2). apply dbl_z. split; [exact Hx1|]. split; [exact Hy1|]. exists Z1. exact Hw1.
Qed.
Lemma to_affine_z q : zrep q -> to_affine q = (0, 0).
Proof.
  destruct q as [[x y] zz]. intros (Hx & Hy & Z & Hz). unfold to_affine. cbv zeta.
  assert (HI : exists I, rp 1 (fe_inv zz) I). { destruct (fp_dec P Z z0) as [-> |N]; [exists z0; apply inv_0, Hz|eexists; exact (inv_v _ _ Hz N)]. }
  destruct HI as [I HI]. set (zi := fe_inv zz) in *. clearbody zi. apply f_equal2.
  - erewrite bytes_v; [|eapply cn_eq; [eapply cn_norm; [rps|reflexivity]|instantiate (1 := z0); ring]]. reflexivity.
  - erewrite bytes_v; [|eapply cn_eq; [eapply cn_norm; [rps|reflexivity]|instantiate (1 := z0); ring]]. reflexivity.
Qed.
Definition zop (o : opnd) : Prop := let '(x, y, yn, zz) := o in zrep (x, y, zz) /\ zrep (x, yn, zz).
Lemma add_bit_z q o a b : zrep q -> zop o -> zrep (fst (add_bit q o a b)) /\ zop (snd (add_bit q o a b)).
Proof.
  destruct o as [[[x y] yn] zz]. intros Q [O1 O2]. destruct a; cbn [add_bit].
  - destruct (add_z q (x, y, zz) Q O1) as [A B]. destruct (add_jac q (x, y, zz)) as [q' [[x' y'] z']]. cbn [fst snd] in *. split; [exact A|]. split; [exact B|]. destruct O2 as (_ & O2 & _). destruct B as (B1 & _ & B3). split; [exact B1|]. split; assumption.
  - destruct b; cbn [add_bit]; [|split; [exact Q|split; assumption]].
    destruct (add_z q (x, yn, zz) Q O2) as [A B]. destruct (add_jac q (x, yn, zz)) as [q' [[x' y'] z']]. cbn [fst snd] in *. split; [exact A|]. split; [|exact B]. destruct O1 as (_ & O1 & _). destruct B as (B1 & _ & B3). split; [exact B1|]. split; assumption.
Qed.
Lemma mul_bits_z n : forall a b c d q o1 o2, zrep q -> zop o1 -> zop o2 -> let '(q', o1', o2') := mul_bits n a b c d (q, o1, o2) in zrep q' /\ zop o1' /\ zop o2'.
Proof.
  induction n as [|n IH]; intros a b c d q o1 o2 Q O1 O2; cbn [mul_bits]; [auto|].
  destruct (add_bit_z _ o1 (top a) (top b) (dbl_z q Q) O1) as [Q1 O1']. destruct (add_bit (dbl_jac q) o1 (top a) (top b)) as [q1 o1'].
  destruct (add_bit_z _ o2 (top c) (top d) Q1 O2) as [Q2 O2']. cbn [fst] in *. destruct (add_bit q1 o2 (top c) (top d)) as [q2 o2']. apply IH; assumption.
Qed.
Lemma loop_z (f g h k : nat -> Z) l : forall q o1 o2, zrep q -> zop o1 -> zop o2 -> zrep (fst (fst (fold_left (fun st i => mul_bits 8 (f i) (g i) (h i) (k i) st) l (q, o1, o2)))).
Proof.
  induction l as [|i l IH]; intros q o1 o2 Q O1 O2; [exact Q|]. cbn [fold_left]. assert (K := mul_bits_z 8 (f i) (g i) (h i) (k i) q o1 o2 Q O1 O2).
  destruct (mul_bits 8 (f i) (g i) (h i) (k i) (q, o1, o2)) as [[q' o1'] o2']. destruct K as (K1 & K2 & K3). apply IH; assumption.
Qed.
Local Opaque to_fe naf split_k.
Theorem s_mul_zero k : s_mul (0, 0) k = (0, 0).
Proof.
  unfold s_mul. destruct (split_k (modulo_reduce k)) as [k1 k2]. cbn [fst snd]. assert (Hx := to_fe_ok 0 ltac:(lia)). assert (Hb : rp 1 (to_fe beta256) (z beta256)) by (apply to_fe_ok; split; [discriminate|reflexivity]).
  set (px := to_fe 0) in *. set (pb := to_fe beta256) in *. clearbody px pb. assert (O := cn_rp _ _ (cn_int 1 ltac:(lia))).
  assert (Hn : rp 2 (fe_neg px 1) z0) by (eapply rp_eq; [exact (rp_neg 1 px z0 1 Hx eq_refl)|ring]). assert (H2 : rp 1 (fe_mul px pb) z0) by (eapply rp_eq; [eapply rp_mul; [exact Hx|exact Hb|reflexivity]|ring]).
  assert (R : forall x y (b : bool), rp 1 x z0 -> rp 1 y z0 -> zop (if b then (x, fe_neg px 1, y, fe_int 1) else (x, y, fe_neg px 1, fe_int 1))).
  { intros x y b A B. assert (B' := rp_up 1 2 _ _ B eq_refl). destruct b; (split; (split; [exact A|]; split; [assumption|exists z1; exact O])). }
  assert (O1 := R px px (k1 <? 0) Hx Hx). assert (O2 := R (fe_mul px pb) px (k2 <? 0) H2 Hx).
  destruct (naf (to_be k1)) as [p1 n1]. destruct (naf (to_be k2)) as [p2 n2]. set (m := Nat.max (length p1) (length p2)).
  assert (K := loop_z (byte_at m p1) (byte_at m n1) (byte_at m p2) (byte_at m n2) (seq 0 m) jzero _ _ jzero_z O1 O2).
  assert (T : forall st : jp * opnd * opnd, (let '(q, _, _) := st in to_affine q) = to_affine (fst (fst st))) by (now intros [[? ?] ?]).
  etransitivity; [apply T|]. exact (to_affine_z _ K).
Qed.
