(** SecpNorm.v -- Normalize, negation, addition, bytes, inversion and square root of field.go: what they compute. *)
From Verif Require Import Base BigInt NumTh SecpField SecpFieldThm.

(** ** Normalize *)
Lemma land_full a b : in26 a -> in26 b -> (Z.land a b = base_mask <-> a = base_mask /\ b = base_mask).
Proof.
  intros A B. split; [|intros [-> ->]; reflexivity]. intro E.
  assert (Q : forall x y, in26 x -> Z.land x y = base_mask -> x = base_mask).
  { clear. intros x y X E. apply Z.bits_inj'. intros i Hi. destruct (Z_lt_le_dec i 26) as [L|L].
    - assert (T : Z.testbit base_mask i = true) by (change base_mask with (Z.ones 26); apply Z.ones_spec_low; lia).
      rewrite T. rewrite <- E, Z.land_spec in T. apply andb_prop in T. tauto.
    - change base_mask with (Z.ones 26). rewrite Z.ones_spec_high by lia. destruct (Z.eq_dec x 0) as [->|N]; [apply Z.bits_0|].
      unfold in26 in X. apply Z.bits_above_log2; [lia|]. apply Z.lt_le_trans with 26; [|exact L]. apply Z.log2_lt_pow2; lia. }
  split; [exact (Q a b A E)|]. apply (Q b a B). rewrite Z.land_comm. exact E.
Qed.
Lemma land_in26 a b : in26 a -> in26 b -> in26 (Z.land a b).
Proof.
  unfold in26. intros A B. split; [apply Z.land_nonneg; lia|]. 
  destruct (Z.eq_dec (Z.land a b) 0) as [->|N]; [lia|]. assert (0 <= Z.land a b) by (apply Z.land_nonneg; lia).
  apply Z.log2_lt_pow2; [lia|]. pose proof (Z.log2_land a b ltac:(lia) ltac:(lia)).
  destruct (Z.eq_dec a 0) as [->|N']; [rewrite Z.land_0_l in N; lia|]. assert (Z.log2 a < 26) by (apply Z.log2_lt_pow2; lia). lia.
Qed.
Lemma land_full7 a b c d e f g : in26 a -> in26 b -> in26 c -> in26 d -> in26 e -> in26 f -> in26 g ->
  (Z.land (Z.land (Z.land (Z.land (Z.land (Z.land a b) c) d) e) f) g =? base_mask) = true <->
  a = base_mask /\ b = base_mask /\ c = base_mask /\ d = base_mask /\ e = base_mask /\ f = base_mask /\ g = base_mask.
Proof.
  intros. rewrite Z.eqb_eq. rewrite !land_full; [tauto|..]; repeat apply land_in26; assumption.
Qed.
(** one step of a carry chain on uint32 *)
Lemma step32 x c a : x = w32 (Z.shiftr c 26 + a) -> 0 <= c < 2 ^ 32 -> 0 <= a < 2 ^ 32 - 64 ->
  exists q t, x = 2 ^ 26 * q + t /\ x = c / 2 ^ 26 + a /\ in26 t /\ Z.land x base_mask = t /\ 0 <= q < 64 /\ x / 2 ^ 26 = q /\ 0 <= x < 2 ^ 32.
Proof.
  intros E C A. assert (Q : 0 <= c / 2 ^ 26 < 64) by (clear -C; Z.div_mod_to_equations; lia).
  rewrite shr26, w32_small in E by lia. exists (x / 2 ^ 26), (x mod 2 ^ 26). rewrite land26.
  pose proof (Z.div_mod x (2 ^ 26) ltac:(lia)). pose proof (Z.mod_pos_bound x (2 ^ 26) ltac:(lia)).
  unfold in26. assert (0 <= x / 2 ^ 26 < 64) by (split; [apply Z.div_pos; lia|apply Z.div_lt_upper_bound; lia]). repeat split; lia.
Qed.
Lemma step32_0 x a : x = w32 a -> 0 <= a < 2 ^ 32 ->
  exists q t, x = 2 ^ 26 * q + t /\ x = a /\ in26 t /\ Z.land x base_mask = t /\ 0 <= q < 64 /\ x / 2 ^ 26 = q /\ 0 <= x < 2 ^ 32.
Proof.
  intros E A. rewrite w32_small in E by lia. exists (x / 2 ^ 26), (x mod 2 ^ 26). rewrite land26.
  pose proof (Z.div_mod x (2 ^ 26) ltac:(lia)). pose proof (Z.mod_pos_bound x (2 ^ 26) ltac:(lia)).
  unfold in26. assert (0 <= x / 2 ^ 26 < 64) by (split; [apply Z.div_pos; lia|apply Z.div_lt_upper_bound; lia]). repeat split; lia.
Qed.
Definition carry_flag (t0 t1 t2 t3 t4 t5 t6 t7 t8 t9 : Z) : Z :=
  let m := 1 in
  let m := if t9 =? msb_mask then Z.land m 1 else Z.land m 0 in
  let m := if Z.land (Z.land (Z.land (Z.land (Z.land (Z.land t2 t3) t4) t5) t6) t7) t8 =? base_mask then Z.land m 1 else Z.land m 0 in
  let m := if base_mask <? w32 (Z.shiftr (w32 (t0 + 977)) 26 + t1 + 64) then Z.land m 1 else Z.land m 0 in
  if negb (Z.shiftr t9 22 =? 0) then Z.lor m 1 else Z.lor m 0.
Definition ev10 (t0 t1 t2 t3 t4 t5 t6 t7 t8 t9 : Z) : Z := fval (Fe t0 t1 t2 t3 t4 t5 t6 t7 t8 t9).
Lemma carry_flag_ok t0 t1 t2 t3 t4 t5 t6 t7 t8 t9 : in26 t0 -> in26 t1 -> in26 t2 -> in26 t3 -> in26 t4 -> in26 t5 -> in26 t6 -> in26 t7 -> in26 t8 ->
  0 <= t9 < 2 ^ 22 + 64 ->
  carry_flag t0 t1 t2 t3 t4 t5 t6 t7 t8 t9 = if p256k1 <=? ev10 t0 t1 t2 t3 t4 t5 t6 t7 t8 t9 then 1 else 0.
Proof.
  intros. unfold carry_flag. cbv zeta. rewrite shr22, shr26.
  pose proof (land_full7 t2 t3 t4 t5 t6 t7 t8 ltac:(assumption) ltac:(assumption) ltac:(assumption) ltac:(assumption) ltac:(assumption) ltac:(assumption) ltac:(assumption)) as L7.
  unfold in26 in *. rewrite (w32_small (t0 + 977)) by lia.
  assert (Q : 0 <= (t0 + 977) / 2 ^ 26 <= 1) by (clear -H; Z.div_mod_to_equations; lia).
  rewrite w32_small by lia.
  assert (QE : (t0 + 977) / 2 ^ 26 = if 2 ^ 26 - 977 <=? t0 then 1 else 0).
  { destruct (Z.leb_spec (2 ^ 26 - 977) t0); clear -H H9; Z.div_mod_to_equations; lia. }
  assert (Q9 : t9 / 2 ^ 22 = if 2 ^ 22 <=? t9 then 1 else 0).
  { destruct (Z.leb_spec (2 ^ 22) t9); clear -H8 H9; Z.div_mod_to_equations; lia. }
  rewrite QE, Q9. clear Q QE Q9. unfold ev10, fval, p256k1, msb_mask, base_mask in *.
  destruct (Z.leb_spec (2 ^ 22) t9); cbn [negb Z.eqb].
  - rewrite Z.lor_comm. transitivity 1; [|destruct (Z.leb_spec (2 ^ 256 - 4294968273) (t0 + 2 ^ 26 * t1 + 2 ^ 52 * t2 + 2 ^ 78 * t3 + 2 ^ 104 * t4 + 2 ^ 130 * t5 + 2 ^ 156 * t6 + 2 ^ 182 * t7 + 2 ^ 208 * t8 + 2 ^ 234 * t9)); lia].
    destruct (t9 =? 4194303), (_ =? 67108863), (67108863 <? _); reflexivity.
  - rewrite Z.lor_0_r. destruct (Z.eqb_spec t9 4194303) as [E9|E9].
    + destruct (Z.land _ _ =? 67108863) eqn:EL.
      * destruct (proj1 L7 eq_refl) as (-> & -> & -> & -> & -> & -> & ->). subst t9. change (Z.land (Z.land 1 1) 1) with 1.
        destruct (Z.leb_spec (2 ^ 26 - 977) t0);
        match goal with |- (if ?a <? ?b then _ else _) = (if ?c <=? ?d then _ else _) => destruct (Z.ltb_spec a b), (Z.leb_spec c d) end; try reflexivity; exfalso; lia.
      * match goal with |- (if ?a <? ?b then _ else _) = (if ?c <=? ?d then _ else _) => destruct (a <? b); destruct (Z.leb_spec c d) end; try reflexivity; exfalso;
        assert (X : ~ false = true) by discriminate; apply X; apply L7; lia.
    + match goal with |- _ = (if ?c <=? ?d then _ else _) => destruct (Z.leb_spec c d) end; [exfalso; lia|].
      destruct (_ =? 67108863), (_ <? _); reflexivity.
Qed.

Definition pass_eqs (b0 b1 b2 b3 b4 b5 b6 b7 b8 b9 m x0 x1 x2 x3 x4 x5 x6 x7 x8 x9 : Z) : Prop :=
  x0 = w32 (b0 + m * 977) /\ x1 = w32 (Z.shiftr x0 26 + b1 + Z.shiftl m 6) /\ x2 = w32 (Z.shiftr x1 26 + b2) /\ x3 = w32 (Z.shiftr x2 26 + b3) /\ x4 = w32 (Z.shiftr x3 26 + b4) /\ x5 = w32 (Z.shiftr x4 26 + b5) /\ x6 = w32 (Z.shiftr x5 26 + b6) /\ x7 = w32 (Z.shiftr x6 26 + b7) /\ x8 = w32 (Z.shiftr x7 26 + b8) /\ x9 = w32 (Z.shiftr x8 26 + b9).
Lemma pass_ok b0 b1 b2 b3 b4 b5 b6 b7 b8 b9 m : 0 <= b0 < 2 ^ 32 - 2 ^ 20 -> 0 <= b1 < 2 ^ 32 - 2 ^ 20 -> 0 <= b2 < 2 ^ 32 - 2 ^ 20 -> 0 <= b3 < 2 ^ 32 - 2 ^ 20 -> 0 <= b4 < 2 ^ 32 - 2 ^ 20 -> 0 <= b5 < 2 ^ 32 - 2 ^ 20 -> 0 <= b6 < 2 ^ 32 - 2 ^ 20 -> 0 <= b7 < 2 ^ 32 - 2 ^ 20 -> 0 <= b8 < 2 ^ 32 - 2 ^ 20 -> 0 <= b9 < 2 ^ 32 - 2 ^ 20 -> 0 <= m < 64 ->
  forall x0 x1 x2 x3 x4 x5 x6 x7 x8 x9, pass_eqs b0 b1 b2 b3 b4 b5 b6 b7 b8 b9 m x0 x1 x2 x3 x4 x5 x6 x7 x8 x9 ->
  exists t0 t1 t2 t3 t4 t5 t6 t7 t8, Z.land x0 base_mask = t0 /\ in26 t0 /\ Z.land x1 base_mask = t1 /\ in26 t1 /\ Z.land x2 base_mask = t2 /\ in26 t2 /\ Z.land x3 base_mask = t3 /\ in26 t3 /\ Z.land x4 base_mask = t4 /\ in26 t4 /\ Z.land x5 base_mask = t5 /\ in26 t5 /\ Z.land x6 base_mask = t6 /\ in26 t6 /\ Z.land x7 base_mask = t7 /\ in26 t7 /\ Z.land x8 base_mask = t8 /\ in26 t8 /\ b9 <= x9 < b9 + 64 /\
    fval (Fe t0 t1 t2 t3 t4 t5 t6 t7 t8 x9) = fval (Fe b0 b1 b2 b3 b4 b5 b6 b7 b8 b9) + m * 4294968273.
Proof.
  intros B0 B1 B2 B3 B4 B5 B6 B7 B8 B9 Bm x0 x1 x2 x3 x4 x5 x6 x7 x8 x9 (E0 & E1 & E2 & E3 & E4 & E5 & E6 & E7 & E8 & E9).
  rewrite Z.shiftl_mul_pow2 in E1 by lia. rewrite <- Z.add_assoc in E1.
  destruct (step32_0 _ _ E0 ltac:(clear -B0 Bm; lia)) as (q0 & t0 & D0 & F0 & I0 & L0 & Q0 & R0 & S0).
  destruct (step32 _ _ _ E1 S0 ltac:(clear -B1 Bm; lia)) as (q1 & t1 & D1 & F1 & I1 & L1 & Q1 & R1 & S1).
  destruct (step32 _ _ _ E2 S1 ltac:(clear -B2 Bm; lia)) as (q2 & t2 & D2 & F2 & I2 & L2 & Q2 & R2 & S2).
  destruct (step32 _ _ _ E3 S2 ltac:(clear -B3 Bm; lia)) as (q3 & t3 & D3 & F3 & I3 & L3 & Q3 & R3 & S3).
  destruct (step32 _ _ _ E4 S3 ltac:(clear -B4 Bm; lia)) as (q4 & t4 & D4 & F4 & I4 & L4 & Q4 & R4 & S4).
  destruct (step32 _ _ _ E5 S4 ltac:(clear -B5 Bm; lia)) as (q5 & t5 & D5 & F5 & I5 & L5 & Q5 & R5 & S5).
  destruct (step32 _ _ _ E6 S5 ltac:(clear -B6 Bm; lia)) as (q6 & t6 & D6 & F6 & I6 & L6 & Q6 & R6 & S6).
  destruct (step32 _ _ _ E7 S6 ltac:(clear -B7 Bm; lia)) as (q7 & t7 & D7 & F7 & I7 & L7 & Q7 & R7 & S7).
  destruct (step32 _ _ _ E8 S7 ltac:(clear -B8 Bm; lia)) as (q8 & t8 & D8 & F8 & I8 & L8 & Q8 & R8 & S8).
  destruct (step32 _ _ _ E9 S8 ltac:(clear -B9 Bm; lia)) as (q9 & t9 & D9 & F9 & I9 & L9 & Q9 & R9 & S9).
  exists t0, t1, t2, t3, t4, t5, t6, t7, t8.
    rewrite R0 in F1. rewrite R1 in F2. rewrite R2 in F3. rewrite R3 in F4. rewrite R4 in F5. rewrite R5 in F6. rewrite R6 in F7. rewrite R7 in F8. rewrite R8 in F9.
  clear E0 E1 E2 E3 E4 E5 E6 E7 E8 E9 R0 R1 R2 R3 R4 R5 R6 R7 R8 R9.
  split; [exact L0|]. split; [exact I0|].
  split; [exact L1|]. split; [exact I1|].
  split; [exact L2|]. split; [exact I2|].
  split; [exact L3|]. split; [exact I3|].
  split; [exact L4|]. split; [exact I4|].
  split; [exact L5|]. split; [exact I5|].
  split; [exact L6|]. split; [exact I6|].
  split; [exact L7|]. split; [exact I7|].
  split; [exact L8|]. split; [exact I8|].
  split; [clear -F9 Q8; lia|]. unfold fval. clear -D0 D1 D2 D3 D4 D5 D6 D7 D8 F0 F1 F2 F3 F4 F5 F6 F7 F8 F9. lia.
Qed.
Lemma norm_unfold a0 a1 a2 a3 a4 a5 a6 a7 a8 a9 m x0 x1 x2 x3 x4 x5 x6 x7 x8 x9 t0 t1 t2 t3 t4 t5 t6 t7 t8 c y0 y1 y2 y3 y4 y5 y6 y7 y8 y9 :
  m = Z.shiftr a9 22 -> pass_eqs a0 a1 a2 a3 a4 a5 a6 a7 a8 (Z.land a9 msb_mask) m x0 x1 x2 x3 x4 x5 x6 x7 x8 x9 ->
  Z.land x0 base_mask = t0 -> Z.land x1 base_mask = t1 -> Z.land x2 base_mask = t2 -> Z.land x3 base_mask = t3 -> Z.land x4 base_mask = t4 -> Z.land x5 base_mask = t5 -> Z.land x6 base_mask = t6 -> Z.land x7 base_mask = t7 -> Z.land x8 base_mask = t8 ->
  c = carry_flag t0 t1 t2 t3 t4 t5 t6 t7 t8 x9 -> pass_eqs t0 t1 t2 t3 t4 t5 t6 t7 t8 x9 c y0 y1 y2 y3 y4 y5 y6 y7 y8 y9 ->
  fe_norm (Fe a0 a1 a2 a3 a4 a5 a6 a7 a8 a9) = Fe (Z.land y0 base_mask) (Z.land y1 base_mask) (Z.land y2 base_mask) (Z.land y3 base_mask) (Z.land y4 base_mask) (Z.land y5 base_mask) (Z.land y6 base_mask) (Z.land y7 base_mask) (Z.land y8 base_mask) (Z.land y9 msb_mask).
Proof.
  intros Em (E0 & E1 & E2 & E3 & E4 & E5 & E6 & E7 & E8 & E9) L0 L1 L2 L3 L4 L5 L6 L7 L8 Ec (G0 & G1 & G2 & G3 & G4 & G5 & G6 & G7 & G8 & G9).
  cbv beta iota zeta delta [fe_norm]. rewrite <- Em, <- E0, <- E1, <- E2, <- E3, <- E4, <- E5, <- E6, <- E7, <- E8, <- E9.
  rewrite L0, L1, L2, L3, L4, L5, L6, L7, L8. unfold carry_flag in Ec. cbv zeta in Ec. rewrite <- Ec.
  rewrite <- G0, <- G1, <- G2, <- G3, <- G4, <- G5, <- G6, <- G7, <- G8, <- G9. reflexivity.
Qed.
(** fully reduced: what Normalize produces *)
Definition canon (a : fe) : Prop :=
  let '(Fe a0 a1 a2 a3 a4 a5 a6 a7 a8 a9) := a in
  in26 a0 /\ in26 a1 /\ in26 a2 /\ in26 a3 /\ in26 a4 /\ in26 a5 /\ in26 a6 /\ in26 a7 /\ in26 a8 /\ 0 <= a9 < 2 ^ 22 /\ fval a < p256k1.

Lemma ex_pass b0 b1 b2 b3 b4 b5 b6 b7 b8 b9 m : exists x0 x1 x2 x3 x4 x5 x6 x7 x8 x9, pass_eqs b0 b1 b2 b3 b4 b5 b6 b7 b8 b9 m x0 x1 x2 x3 x4 x5 x6 x7 x8 x9.
Proof. unfold pass_eqs. repeat eexists. Qed.
Lemma norm_ok a : mag 63 a -> canon (fe_norm a) /\ fval (fe_norm a) = fval a mod p256k1.
Proof.
  destruct a as [a0 a1 a2 a3 a4 a5 a6 a7 a8 a9]. intro M. unfold mag, lim, lim9 in M.
  destruct M as (M0 & M1 & M2 & M3 & M4 & M5 & M6 & M7 & M8 & M9).
  destruct (ex_eq (Z.shiftr a9 22)) as [m Em]. destruct (ex_eq (Z.land a9 msb_mask)) as [b9 Eb].
  destruct (ex_pass a0 a1 a2 a3 a4 a5 a6 a7 a8 b9 m) as (x0 & x1 & x2 & x3 & x4 & x5 & x6 & x7 & x8 & x9 & PX).
  assert (A9 : a9 = 2 ^ 22 * m + b9 /\ 0 <= m < 64 /\ 0 <= b9 < 2 ^ 22).
  { rewrite Em, Eb, shr22, land22. clear -M9. Z.div_mod_to_equations. lia. }
  destruct A9 as (A9 & Bm & B9).
  destruct (pass_ok a0 a1 a2 a3 a4 a5 a6 a7 a8 b9 m ltac:(clear -M0; lia) ltac:(clear -M1; lia) ltac:(clear -M2; lia) ltac:(clear -M3; lia) ltac:(clear -M4; lia) ltac:(clear -M5; lia) ltac:(clear -M6; lia) ltac:(clear -M7; lia) ltac:(clear -M8; lia) ltac:(clear -B9; lia) Bm _ _ _ _ _ _ _ _ _ _ PX)
    as (t0 & t1 & t2 & t3 & t4 & t5 & t6 & t7 & t8 & L0 & I0 & L1 & I1 & L2 & I2 & L3 & I3 & L4 & I4 & L5 & I5 & L6 & I6 & L7 & I7 & L8 & I8 & X9 & V).
  assert (Bx9 : 0 <= x9 < 2 ^ 22 + 64) by (clear -X9 B9; lia).
  destruct (ex_eq (carry_flag t0 t1 t2 t3 t4 t5 t6 t7 t8 x9)) as [c Ec].
  destruct (ex_pass t0 t1 t2 t3 t4 t5 t6 t7 t8 x9 c) as (y0 & y1 & y2 & y3 & y4 & y5 & y6 & y7 & y8 & y9 & PY).
  rewrite Eb in PX.
  rewrite (norm_unfold a0 a1 a2 a3 a4 a5 a6 a7 a8 a9 m x0 x1 x2 x3 x4 x5 x6 x7 x8 x9 t0 t1 t2 t3 t4 t5 t6 t7 t8 c y0 y1 y2 y3 y4 y5 y6 y7 y8 y9
             Em PX L0 L1 L2 L3 L4 L5 L6 L7 L8 Ec PY).
  clear PX L0 L1 L2 L3 L4 L5 L6 L7 L8 x0 x1 x2 x3 x4 x5 x6 x7 x8 M0 M1 M2 M3 M4 M5 M6 M7 M8 M9 Em Eb.
  rewrite (carry_flag_ok t0 t1 t2 t3 t4 t5 t6 t7 t8 x9 I0 I1 I2 I3 I4 I5 I6 I7 I8 Bx9) in Ec. unfold ev10 in Ec.
  assert (Bc : 0 <= c < 64) by (rewrite Ec; clear; destruct (p256k1 <=? _); lia).
  destruct (pass_ok t0 t1 t2 t3 t4 t5 t6 t7 t8 x9 c ltac:(clear -I0; unfold in26 in *; lia) ltac:(clear -I1; unfold in26 in *; lia) ltac:(clear -I2; unfold in26 in *; lia) ltac:(clear -I3; unfold in26 in *; lia) ltac:(clear -I4; unfold in26 in *; lia) ltac:(clear -I5; unfold in26 in *; lia) ltac:(clear -I6; unfold in26 in *; lia) ltac:(clear -I7; unfold in26 in *; lia) ltac:(clear -I8; unfold in26 in *; lia) ltac:(clear -Bx9; lia) Bc _ _ _ _ _ _ _ _ _ _ PY)
    as (u0 & u1 & u2 & u3 & u4 & u5 & u6 & u7 & u8 & L0 & J0 & L1 & J1 & L2 & J2 & L3 & J3 & L4 & J4 & L5 & J5 & L6 & J6 & L7 & J7 & L8 & J8 & Y9 & V').
  rewrite L0, L1, L2, L3, L4, L5, L6, L7, L8, land22. clear PY L0 L1 L2 L3 L4 L5 L6 L7 L8 y0 y1 y2 y3 y4 y5 y6 y7 y8.
  assert (VV : fval (Fe a0 a1 a2 a3 a4 a5 a6 a7 a8 a9) = fval (Fe t0 t1 t2 t3 t4 t5 t6 t7 t8 x9) + m * p256k1).
  { rewrite V, A9. unfold fval, p256k1. clear. lia. }
  assert (T : 0 <= fval (Fe t0 t1 t2 t3 t4 t5 t6 t7 t8 x9) < 2 ^ 234 * (x9 + 1)) by (clear -I0 I1 I2 I3 I4 I5 I6 I7 I8 Bx9; unfold in26, fval in *; lia).
  assert (U : 2 ^ 234 * y9 <= fval (Fe u0 u1 u2 u3 u4 u5 u6 u7 u8 y9) < 2 ^ 234 * (y9 + 1)) by (clear -J0 J1 J2 J3 J4 J5 J6 J7 J8; unfold in26, fval in *; lia).
  assert (VZ : fval (Fe u0 u1 u2 u3 u4 u5 u6 u7 u8 (y9 mod 2 ^ 22)) = fval (Fe u0 u1 u2 u3 u4 u5 u6 u7 u8 y9) - 2 ^ 256 * (y9 / 2 ^ 22)).
  { pose proof (Z.div_mod y9 (2 ^ 22) ltac:(lia)). unfold fval. clear -H. lia. }
  assert (D : y9 / 2 ^ 22 = c /\ fval (Fe u0 u1 u2 u3 u4 u5 u6 u7 u8 (y9 mod 2 ^ 22)) = fval (Fe t0 t1 t2 t3 t4 t5 t6 t7 t8 x9) - c * p256k1 /\
    0 <= fval (Fe t0 t1 t2 t3 t4 t5 t6 t7 t8 x9) - c * p256k1 < p256k1).
  { rewrite VZ, V'. unfold p256k1 in *. revert Ec. destruct (Z.leb_spec (2 ^ 256 - 4294968273) (fval (Fe t0 t1 t2 t3 t4 t5 t6 t7 t8 x9))) as [G|G]; intro Ec.
    - assert (Q : y9 / 2 ^ 22 = 1) by (symmetry; apply Z.div_unique with (y9 - 2 ^ 22); clear -G Ec V' U Y9 Bx9; lia). rewrite Q, Ec. clear -G T Bx9. lia.
    - assert (Q : y9 / 2 ^ 22 = 0) by (apply Z.div_small; clear -G Ec V' U Y9 Bx9; lia). rewrite Q, Ec. clear -G T. lia. }
  destruct D as (_ & D & DB). pose proof (Z.mod_pos_bound y9 (2 ^ 22) ltac:(lia)) as M9. split.
  - unfold canon. rewrite D. tauto.
  - rewrite D, VV. apply Z.mod_unique with (c + m); [left; exact DB|]. clear. lia.
Qed.
