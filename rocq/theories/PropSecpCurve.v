(** PropSecpCurve.v -- C57: the methods of the curve returned by tss.S256() compute the group law of secp256k1 for every input;
    the derivation theorems C51 hold on it. *)
From Verif Require Import Base BigInt NumTh FieldP AbGroup AbZ WGroup WCurve SecpField SecpFieldThm SecpNorm SecpOps SecpPrimes PropSecpField Secp256k1 SecpCurve SecpJac PropSecp SecpMul SecpZero Curve Ckd Bip32 PropBip32.
From Coq Require Import Znumtheory Field.
Add Field FpC : FTH.

(** IsOnCurve on 256-bit coordinates is the equation of the curve ... *)
Theorem C57_is_on_curve x y : 0 <= x < 2 ^ 256 -> 0 <= y < 2 ^ 256 -> is_on_curve x y = true <-> (y * y) mod P = (x * x * x + 7) mod P.
Proof. exact (is_on_ok x y). Qed.
(** ... so on reduced coordinates it accepts exactly the points other than infinity. *)
Theorem C57_is_on_curve_points x y : 0 <= x < P -> 0 <= y < P -> is_on_curve x y = true <-> exists A, A <> ezero /\ aff A = (x, y).
Proof.
  intros X Y. pose proof P_lt. rewrite is_on_ok by lia. rewrite <- on_curve_point. unfold on_curve. tauto.
Qed.
Theorem C57_infinity_off_curve : is_on_curve 0 0 = false.
Proof. destruct (is_on_curve 0 0) eqn:H; [|reflexivity]. apply is_on_ok in H; [discriminate H|lia|lia]. Qed.
(** It does not check that coordinates are reduced, non-negative or at most 32 bytes long: *)
Definition x1 : Z := 1.
Definition y1 : Z := 29896722852569046015560700294576055776214335159245303116488692907525646231534.
Theorem C57_unreduced_accepted : is_on_curve (P + x1) y1 = true /\ is_on_curve x1 y1 = true /\ is_on_curve (- x1) (- y1) = true.
Proof.
  assert (H : forall x, x = P + x1 \/ x = x1 -> is_on_curve x y1 = true).
  { intros x [-> | ->]; (apply is_on_ok; [split; [discriminate|reflexivity]|split; [discriminate|reflexivity]|vm_compute; reflexivity]). }
  split; [apply H; auto|]. split; [apply H; auto|]. transitivity (is_on_curve x1 y1); [|apply H; auto].
  unfold is_on_curve, to_fe. assert (E : forall w, to_be (- w) = to_be w) by (intro w; unfold to_be; rewrite Z.abs_opp; reflexivity). rewrite !E. reflexivity.
Qed.

(** Add and Double are the group law, with (0, 0) for the point at infinity: all cases, including equal, opposite and infinite operands. *)
Theorem C57_add A B : s_add (aff A) (aff B) = aff (eadd A B). Proof. exact (s_add_ok A B). Qed.
Theorem C57_double A : s_double (aff A) = aff (eadd A A). Proof. exact (s_double_ok A). Qed.
(** in coordinates: the chord and the tangent *)
Theorem C57_add_formula x1 y1 x2 y2 : on_curve x1 y1 -> on_curve x2 y2 ->
  exists x3 y3, s_add (x1, y1) (x2, y2) = (x3, y3) /\
  ((x1 = x2 /\ y1 <> y2 /\ (x3, y3) = (0, 0)) \/
   (exists l, ((x1 <> x2 /\ (l * (x2 - x1)) mod P = (y2 - y1) mod P) \/ (x1 = x2 /\ y1 = y2 /\ (l * (2 * y1)) mod P = (3 * (x1 * x1)) mod P)) /\
     on_curve x3 y3 /\ x3 = (l * l - x1 - x2) mod P /\ y3 = (l * (x1 - x3) - y1) mod P)).
Proof.
  intros O1 O2. assert (O1' := O1). assert (O2' := O2). apply on_curve_point in O1' as (A & NA & HA). apply on_curve_point in O2' as (B & NB & HB).
  assert (S := s_add_ok A B). rewrite HA, HB in S. destruct (aff (eadd A B)) as [x3 y3] eqn:H3. exists x3, y3. split; [exact S|]. clear S.
  assert (EX : forall C x y, aff C = (x, y) -> C <> ezero -> proj1_sig C = Some (z x, z y)).
  { intros C x y H N. unfold aff in H. destruct (proj1_sig C) as [[a b]|] eqn:EC; [|destruct N; apply e_eq; exact EC]. injection H as <- <-. now rewrite !fz_fv. }
  assert (PA := EX A _ _ HA NA). assert (PB := EX B _ _ HB NB). assert (W := eadd_w A B). rewrite PA, PB in W. cbn [WGroup.wadd] in W.
  destruct O1 as (X1 & Y1 & O1), O2 as (X2 & Y2 & O2).
  assert (IJ : forall a b, 0 <= a < P -> 0 <= b < P -> z a = z b -> a = b) by (intros a b Ha Hb Q; apply fz_inj in Q; rewrite !Z.mod_small in Q by assumption; exact Q).
  assert (Y1N : y1 <> 0). { intro K. subst y1. pose proof (proj2_sig A) as OA. rewrite PA in OA. exact (sec_nt _ _ OA eq_refl). }
  assert (LN : forall l, proj1_sig (eadd A B) = line F (f_mul P) (f_sub P) l (z x1) (z y1) (z x2) -> on_curve x3 y3 /\ x3 = (fv P l * fv P l - x1 - x2) mod P /\ y3 = (fv P l * (x1 - x3) - y1) mod P).
  { intros l HL. unfold line in HL. cbv zeta in HL. assert (N3 : eadd A B <> ezero) by (intro Q; rewrite Q in HL; discriminate HL).
    assert (O3 : on_curve x3 y3) by (apply on_curve_point; exists (eadd A B); auto). split; [exact O3|]. destruct O3 as (X3 & Y3 & _).
    rewrite (EX _ _ _ H3 N3) in HL. 
    assert (H1 : z x3 = fs (fs (fm l l) (z x1)) (z x2)) by (clear - HL; congruence). assert (H2 : z y3 = fs (fm l (fs (z x1) (z x3))) (z y1)) by (rewrite H1; clear - HL; congruence). clear HL. rewrite <- (fz_fv P l) in H1, H2.
    rewrite <- !fz_mul, <- !fz_sub in H1. rewrite <- !fz_sub, <- !fz_mul, <- !fz_sub in H2. apply fz_inj in H1, H2. rewrite (Z.mod_small x3) in H1 by exact X3. rewrite (Z.mod_small y3) in H2 by exact Y3. split; assumption. }
  assert (SL : forall l a b, fm l (z a) = z b -> (fv P l * a) mod P = b mod P). { intros l a b Q. rewrite <- (fz_fv P l), <- fz_mul in Q. apply fz_inj in Q. exact Q. }
  destruct (FD P (z x1) (z x2)) as [QX|QX].
  - destruct (FD P (z y1) (z y2)) as [QY|QY].
    + destruct (FD P (z y1) z0) as [Q0|Q0]; [destruct Y1N; apply IJ; [exact Y1|split; [lia|reflexivity]|exact Q0]|].
      right. eexists. split; [right; split; [now apply IJ|]; split; [now apply IJ|]|exact (LN _ W)].
      apply SL. rewrite !fz_mul, z3, z2. field. split; [exact Q0|exact (two_nz P prime_p256k1 p_gt3)].
    + left. split; [now apply IJ|]. split; [intro K; apply QY; now rewrite K|]. unfold aff in H3. rewrite W in H3. now symmetry.
  - right. eexists. split; [left; split; [intro K; apply QX; now rewrite K|]|exact (LN _ W)].
    apply SL. rewrite !fz_sub. field. apply sub_nz. exact QX.
Qed.

(** ScalarMult, for every byte string (of any length, leading zeros included) and every point *)
Theorem C57_scalar_mult A k : A <> ezero -> s_mul (aff A) k = aff (zm (of_be k) A). Proof. exact (s_mul_ok A k). Qed.
(** ... also when the coordinates are not reduced *)
Theorem C57_scalar_mult_unreduced x y k : 0 <= x < 2 ^ 256 -> 0 <= y < 2 ^ 256 -> is_on_curve x y = true -> s_mul (x, y) k = s_mul (x mod P, y mod P) k.
Proof.
  intros X Y H. apply is_on_ok in H; [|exact X|exact Y].
  assert (O : on_curve (x mod P) (y mod P)). { split; [apply Z.mod_pos_bound; reflexivity|]. split; [apply Z.mod_pos_bound; reflexivity|].
    rewrite <- Zmult_mod, H. rewrite Zplus_mod, (Zmult_mod (x * x)), (Zmult_mod x x). rewrite (Zplus_mod (x mod P * (x mod P) * (x mod P))), (Zmult_mod (x mod P * (x mod P))), Zmod_mod. reflexivity. }
  apply on_curve_point in O as (A & N & HA). rewrite <- HA, s_mul_ok by exact N. apply s_mul_rep; [exact X|exact Y|]. destruct (aff_rep A _ _ N HA) as (_ & _ & _ & J).
  assert (M : forall w, z (w mod P) = z w) by (intro w; apply fz_mod, Zmod_mod). rewrite !M in J. exact J.
Qed.
(** the point at infinity, as the interface writes it, times anything is infinity *)
Theorem C57_scalar_mult_infinity k : s_mul (0, 0) k = (0, 0). Proof. exact (s_mul_zero k). Qed.
(** ScalarBaseMult, for every byte string, with any table of the right points; it never indexes outside the table *)
Theorem C57_scalar_base_mult T k : table_ok T -> s_base_mul T k = Some (aff (zm (of_be k) G)). Proof. exact (s_base_mul_ok T k). Qed.
(** the table written by the generator is one *)
Theorem C57_table : table_ok gen_table. Proof. exact gen_table_ok. Qed.
(** ScalarBaseMult and ScalarMult of the base point agree *)
Theorem C57_base_agrees k : s_base_mul gen_table k = Some (s_mul (gx256, gy256) k).
Proof. rewrite (s_base_mul_ok gen_table k gen_table_ok), <- aff_G, s_mul_ok by exact g_nz. reflexivity. Qed.

(** splitK: k1 + k2 lambda = k modulo N *)
Theorem C57_split k : let '(k1, k2) := split_k k in (k1 + k2 * lam256) mod n256k1 = of_be k mod n256k1.
Proof.
  assert (S := split_ok k G). destruct (split_k k) as [k1 k2]. rewrite <- ZMM, <- ZMA in S. exact (zm_inj E eadd ezero eneg EC EA EI EV n256k1 G _ _ prime_n256k1 g_order g_nz S).
Qed.
(** NAF: the two byte strings have the same length, never share a bit, and their difference is k *)
Theorem C57_naf k pos neg : naf k = (pos, neg) -> length pos = length neg /\ evb pos - evb neg = of_be k /\
  Forall2 (fun p n => 0 <= p < 256 /\ 0 <= n < 256 /\ Z.land p n = 0) pos neg.
Proof.
  intro H. apply naf_ok in H as (V & L & C). split; [exact L|]. split; [exact V|]. clear - C. induction C as [|a b p n (C1 & C2 & C3) C IH]; constructor; [split; [exact C2|split; assumption]|exact IH].
Qed.
(** consequences in terms of the API alone *)
Theorem C57_homomorphism j k : s_add (s_mul (gx256, gy256) j) (s_mul (gx256, gy256) k) = s_mul (gx256, gy256) (to_be (of_be j + of_be k)).
Proof.
  rewrite <- aff_G, !s_mul_ok, s_add_ok by exact g_nz. rewrite of_be_to_be_nonneg by (pose proof (of_be_range j); pose proof (of_be_range k); lia). now rewrite <- ZMA.
Qed.
Theorem C57_order k : s_mul (gx256, gy256) k = (0, 0) <-> of_be k mod n256k1 = 0.
Proof.
  rewrite <- aff_G, s_mul_ok by exact g_nz. rewrite <- (proj2 (proj2 C56_base_point)). split; [apply aff_none|intros ->; reflexivity].
Qed.
(** the hypotheses hold: every scalar gives a point *)
Theorem C57_example : exists A, A <> ezero /\ aff A = (gx256, gy256) /\ s_double (gx256, gy256) = aff (zm 2 G) /\ s_add (gx256, gy256) (gx256, P - gy256) = (0, 0).
Proof.
  exists G. split; [exact g_nz|]. split; [exact aff_G|]. split; [rewrite <- aff_G, s_double_ok, ZM2; reflexivity|].
  assert (N : aff (eneg G) = (gx256, P - gy256)) by (vm_compute; reflexivity). rewrite <- N, <- aff_G, s_add_ok, EV. reflexivity.
Qed.

(** ** C51 on secp256k1 *)
Definition s256 : curve := {| c_on := is_on_curve; c_add := s_add; c_smul := fun p k => s_mul p (to_be k);
  c_bmul := fun k => match s_base_mul gen_table (to_be k) with Some r => r | None => (0, 0) end; c_g := (gx256, gy256); c_n := n256k1; c_id := (0, 0); c_canon := fun p => on_curve (px p) (py p) |}.
Theorem s256_laws : cyclic_laws s256 (fun k => aff (zm k G)).
Proof.
  constructor; cbn [c_n c_on c_add c_bmul s256].
  - split; reflexivity.
  - intro k. f_equal. apply (zm_mod E eadd ezero eneg EC EA EI EV), g_order.
  - intro k. unfold on, px, py. cbn [c_on s256]. destruct (Z.eqb_spec (k mod n256k1) 0) as [H|H]; cbn [negb].
    + apply (proj2 (proj2 C56_base_point)) in H. rewrite H. exact C57_infinity_off_curve.
    + assert (N : zm k G <> ezero) by (intro K; apply H; apply (proj2 (proj2 C56_base_point)), K). destruct (aff (zm k G)) as [x y] eqn:E. cbn [fst snd].
      destruct (aff_rep _ x y N E) as (X & Y & _). apply C57_is_on_curve_points; [exact X|exact Y|]. exists (zm k G). auto.
  - intros j k H. apply aff_inj in H. exact (zm_inj E eadd ezero eneg EC EA EI EV n256k1 G _ _ prime_n256k1 g_order g_nz H).
  - intros k H. rewrite (s_base_mul_ok gen_table _ gen_table_ok), of_be_to_be_nonneg by exact H. reflexivity.
  - intros j k _ _. rewrite s_add_ok, <- ZMA. reflexivity.
  - intros k H. assert (N : zm k G <> ezero) by (intro K; apply H; apply (proj2 (proj2 C56_base_point)), K). destruct (aff (zm k G)) as [x y] eqn:E.
    destruct (aff_rep _ x y N E) as (X & _). pose proof P_lt. unfold px. cbn [fst]. lia.
Qed.

(** one step and a whole path of derivation on the real curve: C51_step and C51_hierarchy need nothing but HMAC-SHA512 and RIPEMD160 as parameters *)
Theorem C51_step_secp256k1 HM H160 index k x b : ek_pub k = Some (aff (zm x G)) -> ek_ded k = Some (aff (zm b G)) -> x mod n256k1 <> 0 -> b mod n256k1 <> 0 ->
  of_be (ek_priv k) mod n256k1 = x mod n256k1 -> 0 <= index -> forall il k', ek_child s256 n256k1 HM H160 true index false k = Ret (Some (il, k')) ->
  il = of_be (firstn 32 (HM (ek_cc k) (ser_comp (aff (zm b G)) ++ u32be index))) /\ 0 < il < n256k1 /\
  ek_pub k' = Some (aff (zm (x + il) G)) /\ ek_ded k' = Some (aff (zm (b + il) G)) /\ of_be (ek_priv k') = (x + il) mod n256k1 /\
  exists kp, ek_child s256 n256k1 HM H160 false index false k = Ret (Some (il, kp)) /\ ek_priv kp = [] /\ ek_pub kp = ek_pub k'.
Proof.
  intros E1 E2 N1 N2 HP I0 il k' H. destruct (C51_step s256 _ s256_laws HM H160 index k x b E1 E2 N1 N2 HP I0) as [_ S]. destruct (S il k' H) as (_ & _ & S1 & S2 & S3 & S4 & S5 & _ & _ & _ & _ & _ & _ & kp & S6 & S7 & S8 & _).
  split; [exact S1|]. split; [exact S2|]. split; [exact S3|]. split; [exact S4|]. split; [exact S5|]. exists kp. split; [exact S6|]. split; [exact S7|exact S8].
Qed.
(** a root key on secp256k1 meets these hypotheses *)
Theorem C51_secp256k1_example : forall H160 cc, let k := ek_new H160 [zb 5] (aff (zm 5 G)) (aff (zm 3 G)) 0 0 cc in
  ek_pub k = Some (aff (zm 5 G)) /\ ek_ded k = Some (aff (zm 3 G)) /\ 5 mod n256k1 <> 0 /\ 3 mod n256k1 <> 0 /\ of_be (ek_priv k) mod n256k1 = 5 mod n256k1.
Proof. intros. split; [reflexivity|]. split; [reflexivity|]. split; [discriminate|]. split; [discriminate|reflexivity]. Qed.
