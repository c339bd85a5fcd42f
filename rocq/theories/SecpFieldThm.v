(** SecpFieldThm.v -- what the ten-word arithmetic of SecpField.v computes: proofs. *)
From Verif Require Import Base BigInt NumTh SecpField.

Definition p256k1 : Z := 2 ^ 256 - 4294968273.
Definition W : Z := 2 ^ 26.
(** the number a field value stands for *)
Definition fval (a : fe) : Z :=
  let '(Fe a0 a1 a2 a3 a4 a5 a6 a7 a8 a9) := a in
  a0 + 2 ^ 26 * a1 + 2 ^ 52 * a2 + 2 ^ 78 * a3 + 2 ^ 104 * a4 + 2 ^ 130 * a5 + 2 ^ 156 * a6 + 2 ^ 182 * a7 + 2 ^ 208 * a8 + 2 ^ 234 * a9.
(** magnitude m: no word is longer than m times a full word; the words below the top one may be a little longer, because Mul2 leaves
    the carry of its last step in word 2 (field.go 889) *)
Definition lim : Z := 2 ^ 26 + 2 ^ 19.
Definition lim9 : Z := 2 ^ 22.
Definition mag (m : Z) (a : fe) : Prop :=
  let '(Fe a0 a1 a2 a3 a4 a5 a6 a7 a8 a9) := a in
  0 <= a0 <= m * lim /\ 0 <= a1 <= m * lim /\ 0 <= a2 <= m * lim /\ 0 <= a3 <= m * lim /\ 0 <= a4 <= m * lim /\
  0 <= a5 <= m * lim /\ 0 <= a6 <= m * lim /\ 0 <= a7 <= m * lim /\ 0 <= a8 <= m * lim /\ 0 <= a9 <= m * lim9.

(** ** Carry chains *)
Fixpoint sumz (acc : Z) (l : list Z) : Z := match l with [] => acc | x :: l => sumz (acc + x) l end.
Fixpoint chain (m : Z) (cols : list (list Z)) : list Z * Z :=
  match cols with
  | [] => ([], m)
  | c :: cols => let m' := w64 (sumz (Z.shiftr m 26) c) in let r := chain m' cols in (Z.land m' base_mask :: fst r, snd r)
  end.
Fixpoint evw (l : list Z) : Z := match l with [] => 0 | x :: l => x + 2 ^ 26 * evw l end.
Fixpoint evc (l : list (list Z)) : Z := match l with [] => 0 | x :: l => sumz 0 x + 2 ^ 26 * evc l end.
(** upper bounds for the carries *)
Fixpoint chk (M : Z) (us : list (list Z)) : bool :=
  match us with [] => true | u :: us => let M' := M / 2 ^ 26 + sumz 0 u in (M' <? 2 ^ 64) && chk M' us end.
Fixpoint out (M : Z) (us : list (list Z)) : Z := match us with [] => M | u :: us => out (M / 2 ^ 26 + sumz 0 u) us end.

Lemma sumz_acc l : forall a, sumz a l = a + sumz 0 l.
Proof. induction l as [|x l IH]; intro a; cbn [sumz]; [lia|]. rewrite IH, (IH (0 + x)). lia. Qed.
Definition bnd (x u : Z) : Prop := 0 <= x <= u.
Lemma sumz_bnd l us : Forall2 bnd l us -> 0 <= sumz 0 l <= sumz 0 us.
Proof.
  induction 1 as [|x u l us B _ IH]; cbn [sumz]; [lia|]. rewrite (sumz_acc l), (sumz_acc us). unfold bnd in B. lia.
Qed.
Lemma shr26 m : Z.shiftr m 26 = m / 2 ^ 26. Proof. apply Z.shiftr_div_pow2. discriminate. Qed.
Lemma land26 m : Z.land m base_mask = m mod 2 ^ 26. Proof. change base_mask with (Z.ones 26). apply Z.land_ones. discriminate. Qed.
Lemma land22 m : Z.land m msb_mask = m mod 2 ^ 22. Proof. change msb_mask with (Z.ones 22). apply Z.land_ones. discriminate. Qed.
Lemma shr22 m : Z.shiftr m 22 = m / 2 ^ 22. Proof. apply Z.shiftr_div_pow2. discriminate. Qed.
Lemma w64_small x : 0 <= x < 2 ^ 64 -> w64 x = x. Proof. apply Z.mod_small. Qed.
Lemma w32_small x : 0 <= x < 2 ^ 32 -> w32 x = x. Proof. apply Z.mod_small. Qed.
Lemma div_mono a b k : 0 < k -> a <= b -> a / k <= b / k. Proof. intros. apply Z.div_le_mono; lia. Qed.

Lemma chain_ok cols : forall us m M, Forall2 (Forall2 bnd) cols us -> 0 <= m <= M -> chk M us = true ->
  evw (fst (chain m cols)) + 2 ^ (26 * Z.of_nat (length cols)) * (snd (chain m cols) / 2 ^ 26) = m / 2 ^ 26 + evc cols /\
  0 <= snd (chain m cols) <= out M us /\ Forall (fun t => 0 <= t < 2 ^ 26) (fst (chain m cols)) /\ length (fst (chain m cols)) = length cols.
Proof.
  induction cols as [|c cols IH]; intros us m M B Hm C; inversion B as [|? u ? us' B1 B2]; subst; cbn [chain fst snd evw evc out length chk] in *.
  - split; [|auto]. replace (2 ^ (26 * Z.of_nat 0)) with 1 by reflexivity. lia.
  - apply andb_prop in C. destruct C as [C1 C2]. apply Z.ltb_lt in C1. apply sumz_bnd in B1.
    assert (D : 0 <= m / 2 ^ 26 <= M / 2 ^ 26) by (split; [apply Z.div_pos; lia|apply div_mono; lia]).
    assert (E : w64 (sumz (Z.shiftr m 26) c) = m / 2 ^ 26 + sumz 0 c).
    { rewrite sumz_acc, shr26. apply w64_small. lia. }
    rewrite E. set (m' := m / 2 ^ 26 + sumz 0 c) in *.
    assert (Hm' : 0 <= m' <= M / 2 ^ 26 + sumz 0 u) by (subst m'; lia).
    destruct (IH us' m' _ B2 Hm' C2) as (I1 & I2 & I3 & I4). rewrite land26.
    split; [|split; [exact I2|split; [constructor; [apply Z.mod_pos_bound; lia|exact I3]|now rewrite I4]]].
    replace (26 * Z.of_nat (S (length cols))) with (26 + 26 * Z.of_nat (length cols)) by lia.
    rewrite Z.pow_add_r by lia. rewrite <- Z.mul_assoc.
    pose proof (Z.div_mod m' (2 ^ 26) ltac:(lia)) as DM.
    transitivity (m' mod 2 ^ 26 + 2 ^ 26 * (evw (fst (chain m' cols)) + 2 ^ (26 * Z.of_nat (length cols)) * (snd (chain m' cols) / 2 ^ 26))); [ring|].
    rewrite I1. subst m'. lia.
Qed.

(** ** Reduction *)
Definition red_cols (t0 t1 t2 t3 t4 t5 t6 t7 t8 t10 t11 t12 t13 t14 t15 t16 t17 t18 : Z) : list (list Z) :=
  [[t0; t10 * 15632]; [t1; t10 * 1024; t11 * 15632]; [t2; t11 * 1024; t12 * 15632]; [t3; t12 * 1024; t13 * 15632]; [t4; t13 * 1024; t14 * 15632];
   [t5; t14 * 1024; t15 * 15632]; [t6; t15 * 1024; t16 * 15632]; [t7; t16 * 1024; t17 * 15632]; [t8; t17 * 1024; t18 * 15632]].
Definition red_us : list (list Z) :=
  let k := 2 ^ 26 in [[k; k * 15632]; [k; k * 1024; k * 15632]; [k; k * 1024; k * 15632]; [k; k * 1024; k * 15632]; [k; k * 1024; k * 15632];
   [k; k * 1024; k * 15632]; [k; k * 1024; k * 15632]; [k; k * 1024; k * 15632]; [k; k * 1024; k * 15632]].
Definition in26 (t : Z) : Prop := 0 <= t < 2 ^ 26.

Lemma cong_p a b : a = b -> cong p256k1 a b. Proof. intros ->. reflexivity. Qed.
Lemma cong_k a b k : a = b + k * p256k1 -> cong p256k1 a b. Proof. intro E. exists k. lia. Qed.

Lemma red_chain t0 t1 t2 t3 t4 t5 t6 t7 t8 t10 t11 t12 t13 t14 t15 t16 t17 t18 m0 m1 m2 m3 m4 m5 m6 m7 m8 : m0 = w64 (t0 + t10 * 15632) -> m1 = w64 (Z.shiftr m0 26 + t1 + t10 * 1024 + t11 * 15632) -> m2 = w64 (Z.shiftr m1 26 + t2 + t11 * 1024 + t12 * 15632) -> m3 = w64 (Z.shiftr m2 26 + t3 + t12 * 1024 + t13 * 15632) -> m4 = w64 (Z.shiftr m3 26 + t4 + t13 * 1024 + t14 * 15632) -> m5 = w64 (Z.shiftr m4 26 + t5 + t14 * 1024 + t15 * 15632) -> m6 = w64 (Z.shiftr m5 26 + t6 + t15 * 1024 + t16 * 15632) -> m7 = w64 (Z.shiftr m6 26 + t7 + t16 * 1024 + t17 * 15632) -> m8 = w64 (Z.shiftr m7 26 + t8 + t17 * 1024 + t18 * 15632) ->
  chain 0 (red_cols t0 t1 t2 t3 t4 t5 t6 t7 t8 t10 t11 t12 t13 t14 t15 t16 t17 t18) = ([Z.land m0 base_mask; Z.land m1 base_mask; Z.land m2 base_mask; Z.land m3 base_mask; Z.land m4 base_mask; Z.land m5 base_mask; Z.land m6 base_mask; Z.land m7 base_mask; Z.land m8 base_mask], m8).
Proof.
  intros E0 E1 E2 E3 E4 E5 E6 E7 E8. unfold red_cols. cbn [chain sumz fst snd]. change (Z.shiftr 0 26) with 0. rewrite Z.add_0_l.
  rewrite <- E0, <- E1, <- E2, <- E3, <- E4, <- E5, <- E6, <- E7, <- E8. reflexivity.
Qed.
Lemma red_unfold t0 t1 t2 t3 t4 t5 t6 t7 t8 t9 t10 t11 t12 t13 t14 t15 t16 t17 t18 t19 m0 m1 m2 m3 m4 m5 m6 m7 m8 m9 m d0 d1 : m0 = w64 (t0 + t10 * 15632) -> m1 = w64 (Z.shiftr m0 26 + t1 + t10 * 1024 + t11 * 15632) -> m2 = w64 (Z.shiftr m1 26 + t2 + t11 * 1024 + t12 * 15632) -> m3 = w64 (Z.shiftr m2 26 + t3 + t12 * 1024 + t13 * 15632) -> m4 = w64 (Z.shiftr m3 26 + t4 + t13 * 1024 + t14 * 15632) -> m5 = w64 (Z.shiftr m4 26 + t5 + t14 * 1024 + t15 * 15632) -> m6 = w64 (Z.shiftr m5 26 + t6 + t15 * 1024 + t16 * 15632) -> m7 = w64 (Z.shiftr m6 26 + t7 + t16 * 1024 + t17 * 15632) -> m8 = w64 (Z.shiftr m7 26 + t8 + t17 * 1024 + t18 * 15632) ->
  m9 = w64 (Z.shiftr m8 26 + t9 + t18 * 1024 + t19 * 68719492368) -> m = Z.shiftr m9 22 -> d0 = w64 (Z.land m0 base_mask + m * 977) ->
  d1 = w64 (Z.shiftr d0 26 + Z.land m1 base_mask + m * 64) ->
  fe_red t0 t1 t2 t3 t4 t5 t6 t7 t8 t9 t10 t11 t12 t13 t14 t15 t16 t17 t18 t19 = Fe (w32 (Z.land d0 base_mask)) (w32 (Z.land d1 base_mask)) (w32 (w64 (Z.shiftr d1 26 + Z.land m2 base_mask)))
    (w32 (Z.land m3 base_mask)) (w32 (Z.land m4 base_mask)) (w32 (Z.land m5 base_mask)) (w32 (Z.land m6 base_mask))
    (w32 (Z.land m7 base_mask)) (w32 (Z.land m8 base_mask)) (w32 (Z.land m9 msb_mask)).
Proof.
  intros E0 E1 E2 E3 E4 E5 E6 E7 E8 E9 Em Ed0 Ed1. cbv beta zeta delta [fe_red].
  rewrite <- E0, <- E1, <- E2, <- E3, <- E4, <- E5, <- E6, <- E7, <- E8, <- E9, <- Em, <- Ed0, <- Ed1. reflexivity.
Qed.
Lemma ex_eq (x : Z) : exists y, y = x. Proof. eauto. Qed.

Lemma red_ok t0 t1 t2 t3 t4 t5 t6 t7 t8 t9 t10 t11 t12 t13 t14 t15 t16 t17 t18 t19 :
  in26 t0 -> in26 t1 -> in26 t2 -> in26 t3 -> in26 t4 -> in26 t5 -> in26 t6 -> in26 t7 -> in26 t8 -> in26 t9 ->
  in26 t10 -> in26 t11 -> in26 t12 -> in26 t13 -> in26 t14 -> in26 t15 -> in26 t16 -> in26 t17 -> in26 t18 -> 0 <= t19 <= 2 ^ 24 + 2 ^ 10 ->
  let r := fe_red t0 t1 t2 t3 t4 t5 t6 t7 t8 t9 t10 t11 t12 t13 t14 t15 t16 t17 t18 t19 in
  mag 1 r /\ cong p256k1 (fval r) (evw [t0; t1; t2; t3; t4; t5; t6; t7; t8; t9; t10; t11; t12; t13; t14; t15; t16; t17; t18; t19]).
Proof.
  intros H0 H1 H2 H3 H4 H5 H6 H7 H8 H9 H10 H11 H12 H13 H14 H15 H16 H17 H18 H19.
  destruct (chain_ok (red_cols t0 t1 t2 t3 t4 t5 t6 t7 t8 t10 t11 t12 t13 t14 t15 t16 t17 t18) red_us 0 0) as (V & B & F & _).
  { unfold red_cols, red_us, in26 in *. cbv zeta. repeat apply Forall2_cons; try apply Forall2_nil; unfold bnd; lia. }
  { lia. } { vm_compute. reflexivity. }
  destruct (ex_eq (w64 (t0 + t10 * 15632))) as [m0 Hm0].
  destruct (ex_eq (w64 (Z.shiftr m0 26 + t1 + t10 * 1024 + t11 * 15632))) as [m1 Hm1].
  destruct (ex_eq (w64 (Z.shiftr m1 26 + t2 + t11 * 1024 + t12 * 15632))) as [m2 Hm2].
  destruct (ex_eq (w64 (Z.shiftr m2 26 + t3 + t12 * 1024 + t13 * 15632))) as [m3 Hm3].
  destruct (ex_eq (w64 (Z.shiftr m3 26 + t4 + t13 * 1024 + t14 * 15632))) as [m4 Hm4].
  destruct (ex_eq (w64 (Z.shiftr m4 26 + t5 + t14 * 1024 + t15 * 15632))) as [m5 Hm5].
  destruct (ex_eq (w64 (Z.shiftr m5 26 + t6 + t15 * 1024 + t16 * 15632))) as [m6 Hm6].
  destruct (ex_eq (w64 (Z.shiftr m6 26 + t7 + t16 * 1024 + t17 * 15632))) as [m7 Hm7].
  destruct (ex_eq (w64 (Z.shiftr m7 26 + t8 + t17 * 1024 + t18 * 15632))) as [m8 Hm8].
  destruct (ex_eq (w64 (Z.shiftr m8 26 + t9 + t18 * 1024 + t19 * 68719492368))) as [m9 Hm9]. destruct (ex_eq (Z.shiftr m9 22)) as [m Hm].
  destruct (ex_eq (w64 (Z.land m0 base_mask + m * 977))) as [d0 Hd0]. destruct (ex_eq (w64 (Z.shiftr d0 26 + Z.land m1 base_mask + m * 64))) as [d1 Hd1].
  rewrite (red_chain _ _ _ _ _ _ _ _ _ _ _ _ _ _ _ _ _ _ m0 m1 m2 m3 m4 m5 m6 m7 m8 Hm0 Hm1 Hm2 Hm3 Hm4 Hm5 Hm6 Hm7 Hm8) in V, B, F.
  intro r. assert (R := red_unfold t0 t1 t2 t3 t4 t5 t6 t7 t8 t9 t10 t11 t12 t13 t14 t15 t16 t17 t18 t19 m0 m1 m2 m3 m4 m5 m6 m7 m8 m9 m d0 d1 Hm0 Hm1 Hm2 Hm3 Hm4 Hm5 Hm6 Hm7 Hm8 Hm9 Hm Hd0 Hd1).
  change (r = Fe (w32 (Z.land d0 base_mask)) (w32 (Z.land d1 base_mask)) (w32 (w64 (Z.shiftr d1 26 + Z.land m2 base_mask)))
    (w32 (Z.land m3 base_mask)) (w32 (Z.land m4 base_mask)) (w32 (Z.land m5 base_mask)) (w32 (Z.land m6 base_mask))
    (w32 (Z.land m7 base_mask)) (w32 (Z.land m8 base_mask)) (w32 (Z.land m9 msb_mask))) in R. clearbody r. subst r.
  cbn [fst snd] in V, B, F. clear Hm0 Hm1 Hm2 Hm3 Hm4 Hm5 Hm6 Hm7 Hm8.
  repeat (apply Forall_cons_iff in F; let G := fresh "G" in destruct F as [G F]). clear F.
  assert (OB : out 0 red_us <= 2 ^ 41) by (vm_compute; discriminate).
  assert (B8 : 0 <= m8 <= 2 ^ 41) by lia. clear B OB.
  set (u0 := Z.land m0 base_mask) in *. set (u1 := Z.land m1 base_mask) in *. set (u2 := Z.land m2 base_mask) in *. set (u3 := Z.land m3 base_mask) in *.
  set (u4 := Z.land m4 base_mask) in *. set (u5 := Z.land m5 base_mask) in *. set (u6 := Z.land m6 base_mask) in *. set (u7 := Z.land m7 base_mask) in *.
  set (u8 := Z.land m8 base_mask) in *. clearbody u0 u1 u2 u3 u4 u5 u6 u7 u8. clear m0 m1 m2 m3 m4 m5 m6 m7.
  unfold in26 in *.
  assert (E9 : m9 = m8 / 2 ^ 26 + t9 + t18 * 1024 + t19 * 68719492368).
  { rewrite Hm9, shr26. assert (0 <= m8 / 2 ^ 26 <= 2 ^ 15) by (clear -B8; Z.div_mod_to_equations; lia). apply w64_small. clear -H9 H18 H19 H. lia. }
  assert (B9 : 0 <= m9 < 2 ^ 60 + 2 ^ 48).
  { rewrite E9. assert (0 <= m8 / 2 ^ 26 <= 2 ^ 15) by (clear -B8; Z.div_mod_to_equations; lia). clear -H9 H18 H19 H. lia. }
  assert (Em : m = m9 / 2 ^ 22) by (rewrite Hm; apply shr22).
  assert (Bm : 0 <= m < 2 ^ 38 + 2 ^ 27) by (rewrite Em; clear -B9; Z.div_mod_to_equations; lia).
  assert (Ed0 : d0 = u0 + m * 977) by (rewrite Hd0; apply w64_small; clear -G Bm; lia).
  assert (Bd0 : 0 <= d0 < 2 ^ 49) by (clear -Ed0 G Bm; lia).
  assert (Bq0 : 0 <= d0 / 2 ^ 26 <= 2 ^ 23) by (clear -Bd0; Z.div_mod_to_equations; lia).
  assert (Ed1 : d1 = d0 / 2 ^ 26 + u1 + m * 64).
  { rewrite Hd1, shr26. apply w64_small. clear -Bq0 G0 Bm. lia. }
  assert (Bd1 : 0 <= d1 < 2 ^ 44 + 2 ^ 40) by (clear -Ed1 Bq0 G0 Bm; lia).
  assert (Bq1 : 0 <= d1 / 2 ^ 26 <= 2 ^ 18 + 2 ^ 15) by (clear -Bd1; Z.div_mod_to_equations; lia).
  rewrite !land26, land22, shr26. pose proof (Z.mod_pos_bound d0 (2 ^ 26) ltac:(lia)) as D0. pose proof (Z.mod_pos_bound d1 (2 ^ 26) ltac:(lia)) as D1.
  pose proof (Z.mod_pos_bound m9 (2 ^ 22) ltac:(lia)) as D9.
  rewrite (w64_small (d1 / 2 ^ 26 + u2)) by (clear -Bq1 G1; lia).
  rewrite !w32_small by (clear -D0 D1 D9 Bq1 G G0 G1 G2 G3 G4 G5 G6 G7; lia).
  split.
  { unfold mag, lim, lim9. clear -D0 D1 D9 Bq1 G G0 G1 G2 G3 G4 G5 G6 G7. lia. }
  apply (cong_k _ _ (- m - 16 * evw [t10; t11; t12; t13; t14; t15; t16; t17; t18; t19])).
  pose proof (Z.div_mod d0 (2 ^ 26) ltac:(lia)) as Q0. pose proof (Z.div_mod d1 (2 ^ 26) ltac:(lia)) as Q1. pose proof (Z.div_mod m9 (2 ^ 22) ltac:(lia)) as Q9.
  rewrite <- Em in Q9. unfold red_cols in V. cbn [evw evc sumz length] in *. unfold fval, p256k1. change (2 ^ (26 * Z.of_nat 9)) with (2 ^ 234) in V. change (0 / 2 ^ 26) with 0 in V.
  set (q0 := d0 / 2 ^ 26) in *. set (q1 := d1 / 2 ^ 26) in *. set (r0 := d0 mod 2 ^ 26) in *. set (r1 := d1 mod 2 ^ 26) in *. set (r9 := m9 mod 2 ^ 22) in *.
  set (q8 := m8 / 2 ^ 26) in *. clearbody q0 q1 r0 r1 r9 q8.
  clear -V E9 Ed0 Ed1 Q0 Q1 Q9.
  assert (r0 = u0 + m * 977 - 2 ^ 26 * q0) by lia. assert (r1 = q0 + u1 + m * 64 - 2 ^ 26 * q1) by lia. assert (r9 = q8 + t9 + t18 * 1024 + t19 * 68719492368 - 2 ^ 22 * m) by lia.
  subst r0 r1 r9. clear Q0 Q1 Q9 Ed0 Ed1 E9. lia.
Qed.

(** ** Mul2 and SquareVal *)
Definition mul_cols (a0 a1 a2 a3 a4 a5 a6 a7 a8 a9 b0 b1 b2 b3 b4 b5 b6 b7 b8 b9 : Z) : list (list Z) :=
  [[a0 * b0];
   [a0 * b1; a1 * b0];
   [a0 * b2; a1 * b1; a2 * b0];
   [a0 * b3; a1 * b2; a2 * b1; a3 * b0];
   [a0 * b4; a1 * b3; a2 * b2; a3 * b1; a4 * b0];
   [a0 * b5; a1 * b4; a2 * b3; a3 * b2; a4 * b1; a5 * b0];
   [a0 * b6; a1 * b5; a2 * b4; a3 * b3; a4 * b2; a5 * b1; a6 * b0];
   [a0 * b7; a1 * b6; a2 * b5; a3 * b4; a4 * b3; a5 * b2; a6 * b1; a7 * b0];
   [a0 * b8; a1 * b7; a2 * b6; a3 * b5; a4 * b4; a5 * b3; a6 * b2; a7 * b1; a8 * b0];
   [a0 * b9; a1 * b8; a2 * b7; a3 * b6; a4 * b5; a5 * b4; a6 * b3; a7 * b2; a8 * b1; a9 * b0];
   [a1 * b9; a2 * b8; a3 * b7; a4 * b6; a5 * b5; a6 * b4; a7 * b3; a8 * b2; a9 * b1];
   [a2 * b9; a3 * b8; a4 * b7; a5 * b6; a6 * b5; a7 * b4; a8 * b3; a9 * b2];
   [a3 * b9; a4 * b8; a5 * b7; a6 * b6; a7 * b5; a8 * b4; a9 * b3];
   [a4 * b9; a5 * b8; a6 * b7; a7 * b6; a8 * b5; a9 * b4];
   [a5 * b9; a6 * b8; a7 * b7; a8 * b6; a9 * b5];
   [a6 * b9; a7 * b8; a8 * b7; a9 * b6];
   [a7 * b9; a8 * b8; a9 * b7];
   [a8 * b9; a9 * b8];
   [a9 * b9]].
Definition sq_cols (a0 a1 a2 a3 a4 a5 a6 a7 a8 a9 : Z) : list (list Z) :=
  [[a0 * a0];
   [2 * a0 * a1];
   [2 * a0 * a2; a1 * a1];
   [2 * a0 * a3; 2 * a1 * a2];
   [2 * a0 * a4; 2 * a1 * a3; a2 * a2];
   [2 * a0 * a5; 2 * a1 * a4; 2 * a2 * a3];
   [2 * a0 * a6; 2 * a1 * a5; 2 * a2 * a4; a3 * a3];
   [2 * a0 * a7; 2 * a1 * a6; 2 * a2 * a5; 2 * a3 * a4];
   [2 * a0 * a8; 2 * a1 * a7; 2 * a2 * a6; 2 * a3 * a5; a4 * a4];
   [2 * a0 * a9; 2 * a1 * a8; 2 * a2 * a7; 2 * a3 * a6; 2 * a4 * a5];
   [2 * a1 * a9; 2 * a2 * a8; 2 * a3 * a7; 2 * a4 * a6; a5 * a5];
   [2 * a2 * a9; 2 * a3 * a8; 2 * a4 * a7; 2 * a5 * a6];
   [2 * a3 * a9; 2 * a4 * a8; 2 * a5 * a7; a6 * a6];
   [2 * a4 * a9; 2 * a5 * a8; 2 * a6 * a7];
   [2 * a5 * a9; 2 * a6 * a8; a7 * a7];
   [2 * a6 * a9; 2 * a7 * a8];
   [2 * a7 * a9; a8 * a8];
   [2 * a8 * a9];
   [a9 * a9]].
Definition mul_cols_us : list (list Z) := let k := 8 * lim in let k9 := 8 * lim9 in
  [[k * k]; [k * k; k * k]; [k * k; k * k; k * k]; [k * k; k * k; k * k; k * k]; [k * k; k * k; k * k; k * k; k * k]; [k * k; k * k; k * k; k * k; k * k; k * k]; [k * k; k * k; k * k; k * k; k * k; k * k; k * k]; [k * k; k * k; k * k; k * k; k * k; k * k; k * k; k * k]; [k * k; k * k; k * k; k * k; k * k; k * k; k * k; k * k; k * k]; [k * k9; k * k; k * k; k * k; k * k; k * k; k * k; k * k; k * k; k9 * k]; [k * k9; k * k; k * k; k * k; k * k; k * k; k * k; k * k; k9 * k]; [k * k9; k * k; k * k; k * k; k * k; k * k; k * k; k9 * k]; [k * k9; k * k; k * k; k * k; k * k; k * k; k9 * k]; [k * k9; k * k; k * k; k * k; k * k; k9 * k]; [k * k9; k * k; k * k; k * k; k9 * k]; [k * k9; k * k; k * k; k9 * k]; [k * k9; k * k; k9 * k]; [k * k9; k9 * k]; [k9 * k9]].
Definition sq_cols_us : list (list Z) := let k := 8 * lim in let k9 := 8 * lim9 in
  [[k * k]; [2 * k * k]; [2 * k * k; k * k]; [2 * k * k; 2 * k * k]; [2 * k * k; 2 * k * k; k * k]; [2 * k * k; 2 * k * k; 2 * k * k]; [2 * k * k; 2 * k * k; 2 * k * k; k * k]; [2 * k * k; 2 * k * k; 2 * k * k; 2 * k * k]; [2 * k * k; 2 * k * k; 2 * k * k; 2 * k * k; k * k]; [2 * k * k9; 2 * k * k; 2 * k * k; 2 * k * k; 2 * k * k]; [2 * k * k9; 2 * k * k; 2 * k * k; 2 * k * k; k * k]; [2 * k * k9; 2 * k * k; 2 * k * k; 2 * k * k]; [2 * k * k9; 2 * k * k; 2 * k * k; k * k]; [2 * k * k9; 2 * k * k; 2 * k * k]; [2 * k * k9; 2 * k * k; k * k]; [2 * k * k9; 2 * k * k]; [2 * k * k9; k * k]; [2 * k * k9]; [k9 * k9]].
Lemma bnd_mul a b u v : bnd a u -> bnd b v -> bnd (a * b) (u * v).
Proof. unfold bnd. intros A B. split; [lia|]. apply Z.mul_le_mono_nonneg; lia. Qed.
Lemma mul_chain a0 a1 a2 a3 a4 a5 a6 a7 a8 a9 b0 b1 b2 b3 b4 b5 b6 b7 b8 b9 m0 m1 m2 m3 m4 m5 m6 m7 m8 m9 m10 m11 m12 m13 m14 m15 m16 m17 m18 : m0 = w64 (a0 * b0) ->
  m1 = w64 (Z.shiftr m0 26 + a0 * b1 + a1 * b0) ->
  m2 = w64 (Z.shiftr m1 26 + a0 * b2 + a1 * b1 + a2 * b0) ->
  m3 = w64 (Z.shiftr m2 26 + a0 * b3 + a1 * b2 + a2 * b1 + a3 * b0) ->
  m4 = w64 (Z.shiftr m3 26 + a0 * b4 + a1 * b3 + a2 * b2 + a3 * b1 + a4 * b0) ->
  m5 = w64 (Z.shiftr m4 26 + a0 * b5 + a1 * b4 + a2 * b3 + a3 * b2 + a4 * b1 + a5 * b0) ->
  m6 = w64 (Z.shiftr m5 26 + a0 * b6 + a1 * b5 + a2 * b4 + a3 * b3 + a4 * b2 + a5 * b1 + a6 * b0) ->
  m7 = w64 (Z.shiftr m6 26 + a0 * b7 + a1 * b6 + a2 * b5 + a3 * b4 + a4 * b3 + a5 * b2 + a6 * b1 + a7 * b0) ->
  m8 = w64 (Z.shiftr m7 26 + a0 * b8 + a1 * b7 + a2 * b6 + a3 * b5 + a4 * b4 + a5 * b3 + a6 * b2 + a7 * b1 + a8 * b0) ->
  m9 = w64 (Z.shiftr m8 26 + a0 * b9 + a1 * b8 + a2 * b7 + a3 * b6 + a4 * b5 + a5 * b4 + a6 * b3 + a7 * b2 + a8 * b1 + a9 * b0) ->
  m10 = w64 (Z.shiftr m9 26 + a1 * b9 + a2 * b8 + a3 * b7 + a4 * b6 + a5 * b5 + a6 * b4 + a7 * b3 + a8 * b2 + a9 * b1) ->
  m11 = w64 (Z.shiftr m10 26 + a2 * b9 + a3 * b8 + a4 * b7 + a5 * b6 + a6 * b5 + a7 * b4 + a8 * b3 + a9 * b2) ->
  m12 = w64 (Z.shiftr m11 26 + a3 * b9 + a4 * b8 + a5 * b7 + a6 * b6 + a7 * b5 + a8 * b4 + a9 * b3) ->
  m13 = w64 (Z.shiftr m12 26 + a4 * b9 + a5 * b8 + a6 * b7 + a7 * b6 + a8 * b5 + a9 * b4) ->
  m14 = w64 (Z.shiftr m13 26 + a5 * b9 + a6 * b8 + a7 * b7 + a8 * b6 + a9 * b5) ->
  m15 = w64 (Z.shiftr m14 26 + a6 * b9 + a7 * b8 + a8 * b7 + a9 * b6) ->
  m16 = w64 (Z.shiftr m15 26 + a7 * b9 + a8 * b8 + a9 * b7) ->
  m17 = w64 (Z.shiftr m16 26 + a8 * b9 + a9 * b8) ->
  m18 = w64 (Z.shiftr m17 26 + a9 * b9) ->
  chain 0 (mul_cols a0 a1 a2 a3 a4 a5 a6 a7 a8 a9 b0 b1 b2 b3 b4 b5 b6 b7 b8 b9) = ([Z.land m0 base_mask; Z.land m1 base_mask; Z.land m2 base_mask; Z.land m3 base_mask; Z.land m4 base_mask; Z.land m5 base_mask; Z.land m6 base_mask; Z.land m7 base_mask; Z.land m8 base_mask; Z.land m9 base_mask; Z.land m10 base_mask; Z.land m11 base_mask; Z.land m12 base_mask; Z.land m13 base_mask; Z.land m14 base_mask; Z.land m15 base_mask; Z.land m16 base_mask; Z.land m17 base_mask; Z.land m18 base_mask], m18).
Proof.
  intros E0 E1 E2 E3 E4 E5 E6 E7 E8 E9 E10 E11 E12 E13 E14 E15 E16 E17 E18. unfold mul_cols. cbn [chain sumz fst snd]. change (Z.shiftr 0 26) with 0. rewrite Z.add_0_l.
  rewrite <- E0, <- E1, <- E2, <- E3, <- E4, <- E5, <- E6, <- E7, <- E8, <- E9, <- E10, <- E11, <- E12, <- E13, <- E14, <- E15, <- E16, <- E17, <- E18. reflexivity.
Qed.
Lemma mul_unfold a0 a1 a2 a3 a4 a5 a6 a7 a8 a9 b0 b1 b2 b3 b4 b5 b6 b7 b8 b9 m0 m1 m2 m3 m4 m5 m6 m7 m8 m9 m10 m11 m12 m13 m14 m15 m16 m17 m18 : m0 = w64 (a0 * b0) ->
  m1 = w64 (Z.shiftr m0 26 + a0 * b1 + a1 * b0) ->
  m2 = w64 (Z.shiftr m1 26 + a0 * b2 + a1 * b1 + a2 * b0) ->
  m3 = w64 (Z.shiftr m2 26 + a0 * b3 + a1 * b2 + a2 * b1 + a3 * b0) ->
  m4 = w64 (Z.shiftr m3 26 + a0 * b4 + a1 * b3 + a2 * b2 + a3 * b1 + a4 * b0) ->
  m5 = w64 (Z.shiftr m4 26 + a0 * b5 + a1 * b4 + a2 * b3 + a3 * b2 + a4 * b1 + a5 * b0) ->
  m6 = w64 (Z.shiftr m5 26 + a0 * b6 + a1 * b5 + a2 * b4 + a3 * b3 + a4 * b2 + a5 * b1 + a6 * b0) ->
  m7 = w64 (Z.shiftr m6 26 + a0 * b7 + a1 * b6 + a2 * b5 + a3 * b4 + a4 * b3 + a5 * b2 + a6 * b1 + a7 * b0) ->
  m8 = w64 (Z.shiftr m7 26 + a0 * b8 + a1 * b7 + a2 * b6 + a3 * b5 + a4 * b4 + a5 * b3 + a6 * b2 + a7 * b1 + a8 * b0) ->
  m9 = w64 (Z.shiftr m8 26 + a0 * b9 + a1 * b8 + a2 * b7 + a3 * b6 + a4 * b5 + a5 * b4 + a6 * b3 + a7 * b2 + a8 * b1 + a9 * b0) ->
  m10 = w64 (Z.shiftr m9 26 + a1 * b9 + a2 * b8 + a3 * b7 + a4 * b6 + a5 * b5 + a6 * b4 + a7 * b3 + a8 * b2 + a9 * b1) ->
  m11 = w64 (Z.shiftr m10 26 + a2 * b9 + a3 * b8 + a4 * b7 + a5 * b6 + a6 * b5 + a7 * b4 + a8 * b3 + a9 * b2) ->
  m12 = w64 (Z.shiftr m11 26 + a3 * b9 + a4 * b8 + a5 * b7 + a6 * b6 + a7 * b5 + a8 * b4 + a9 * b3) ->
  m13 = w64 (Z.shiftr m12 26 + a4 * b9 + a5 * b8 + a6 * b7 + a7 * b6 + a8 * b5 + a9 * b4) ->
  m14 = w64 (Z.shiftr m13 26 + a5 * b9 + a6 * b8 + a7 * b7 + a8 * b6 + a9 * b5) ->
  m15 = w64 (Z.shiftr m14 26 + a6 * b9 + a7 * b8 + a8 * b7 + a9 * b6) ->
  m16 = w64 (Z.shiftr m15 26 + a7 * b9 + a8 * b8 + a9 * b7) ->
  m17 = w64 (Z.shiftr m16 26 + a8 * b9 + a9 * b8) ->
  m18 = w64 (Z.shiftr m17 26 + a9 * b9) ->
  fe_mul (Fe a0 a1 a2 a3 a4 a5 a6 a7 a8 a9) (Fe b0 b1 b2 b3 b4 b5 b6 b7 b8 b9) = fe_red (Z.land m0 base_mask) (Z.land m1 base_mask) (Z.land m2 base_mask) (Z.land m3 base_mask) (Z.land m4 base_mask) (Z.land m5 base_mask) (Z.land m6 base_mask) (Z.land m7 base_mask) (Z.land m8 base_mask) (Z.land m9 base_mask) (Z.land m10 base_mask) (Z.land m11 base_mask) (Z.land m12 base_mask) (Z.land m13 base_mask) (Z.land m14 base_mask) (Z.land m15 base_mask) (Z.land m16 base_mask) (Z.land m17 base_mask) (Z.land m18 base_mask) (Z.shiftr m18 26).
Proof.
  intros E0 E1 E2 E3 E4 E5 E6 E7 E8 E9 E10 E11 E12 E13 E14 E15 E16 E17 E18. cbv beta iota zeta delta [fe_mul].
  rewrite <- E0, <- E1, <- E2, <- E3, <- E4, <- E5, <- E6, <- E7, <- E8, <- E9, <- E10, <- E11, <- E12, <- E13, <- E14, <- E15, <- E16, <- E17, <- E18. reflexivity.
Qed.
Lemma sq_chain a0 a1 a2 a3 a4 a5 a6 a7 a8 a9 m0 m1 m2 m3 m4 m5 m6 m7 m8 m9 m10 m11 m12 m13 m14 m15 m16 m17 m18 : m0 = w64 (a0 * a0) ->
  m1 = w64 (Z.shiftr m0 26 + 2 * a0 * a1) ->
  m2 = w64 (Z.shiftr m1 26 + 2 * a0 * a2 + a1 * a1) ->
  m3 = w64 (Z.shiftr m2 26 + 2 * a0 * a3 + 2 * a1 * a2) ->
  m4 = w64 (Z.shiftr m3 26 + 2 * a0 * a4 + 2 * a1 * a3 + a2 * a2) ->
  m5 = w64 (Z.shiftr m4 26 + 2 * a0 * a5 + 2 * a1 * a4 + 2 * a2 * a3) ->
  m6 = w64 (Z.shiftr m5 26 + 2 * a0 * a6 + 2 * a1 * a5 + 2 * a2 * a4 + a3 * a3) ->
  m7 = w64 (Z.shiftr m6 26 + 2 * a0 * a7 + 2 * a1 * a6 + 2 * a2 * a5 + 2 * a3 * a4) ->
  m8 = w64 (Z.shiftr m7 26 + 2 * a0 * a8 + 2 * a1 * a7 + 2 * a2 * a6 + 2 * a3 * a5 + a4 * a4) ->
  m9 = w64 (Z.shiftr m8 26 + 2 * a0 * a9 + 2 * a1 * a8 + 2 * a2 * a7 + 2 * a3 * a6 + 2 * a4 * a5) ->
  m10 = w64 (Z.shiftr m9 26 + 2 * a1 * a9 + 2 * a2 * a8 + 2 * a3 * a7 + 2 * a4 * a6 + a5 * a5) ->
  m11 = w64 (Z.shiftr m10 26 + 2 * a2 * a9 + 2 * a3 * a8 + 2 * a4 * a7 + 2 * a5 * a6) ->
  m12 = w64 (Z.shiftr m11 26 + 2 * a3 * a9 + 2 * a4 * a8 + 2 * a5 * a7 + a6 * a6) ->
  m13 = w64 (Z.shiftr m12 26 + 2 * a4 * a9 + 2 * a5 * a8 + 2 * a6 * a7) ->
  m14 = w64 (Z.shiftr m13 26 + 2 * a5 * a9 + 2 * a6 * a8 + a7 * a7) ->
  m15 = w64 (Z.shiftr m14 26 + 2 * a6 * a9 + 2 * a7 * a8) ->
  m16 = w64 (Z.shiftr m15 26 + 2 * a7 * a9 + a8 * a8) ->
  m17 = w64 (Z.shiftr m16 26 + 2 * a8 * a9) ->
  m18 = w64 (Z.shiftr m17 26 + a9 * a9) ->
  chain 0 (sq_cols a0 a1 a2 a3 a4 a5 a6 a7 a8 a9) = ([Z.land m0 base_mask; Z.land m1 base_mask; Z.land m2 base_mask; Z.land m3 base_mask; Z.land m4 base_mask; Z.land m5 base_mask; Z.land m6 base_mask; Z.land m7 base_mask; Z.land m8 base_mask; Z.land m9 base_mask; Z.land m10 base_mask; Z.land m11 base_mask; Z.land m12 base_mask; Z.land m13 base_mask; Z.land m14 base_mask; Z.land m15 base_mask; Z.land m16 base_mask; Z.land m17 base_mask; Z.land m18 base_mask], m18).
Proof.
  intros E0 E1 E2 E3 E4 E5 E6 E7 E8 E9 E10 E11 E12 E13 E14 E15 E16 E17 E18. unfold sq_cols. cbn [chain sumz fst snd]. change (Z.shiftr 0 26) with 0. rewrite Z.add_0_l.
  rewrite <- E0, <- E1, <- E2, <- E3, <- E4, <- E5, <- E6, <- E7, <- E8, <- E9, <- E10, <- E11, <- E12, <- E13, <- E14, <- E15, <- E16, <- E17, <- E18. reflexivity.
Qed.
Lemma sq_unfold a0 a1 a2 a3 a4 a5 a6 a7 a8 a9 m0 m1 m2 m3 m4 m5 m6 m7 m8 m9 m10 m11 m12 m13 m14 m15 m16 m17 m18 : m0 = w64 (a0 * a0) ->
  m1 = w64 (Z.shiftr m0 26 + 2 * a0 * a1) ->
  m2 = w64 (Z.shiftr m1 26 + 2 * a0 * a2 + a1 * a1) ->
  m3 = w64 (Z.shiftr m2 26 + 2 * a0 * a3 + 2 * a1 * a2) ->
  m4 = w64 (Z.shiftr m3 26 + 2 * a0 * a4 + 2 * a1 * a3 + a2 * a2) ->
  m5 = w64 (Z.shiftr m4 26 + 2 * a0 * a5 + 2 * a1 * a4 + 2 * a2 * a3) ->
  m6 = w64 (Z.shiftr m5 26 + 2 * a0 * a6 + 2 * a1 * a5 + 2 * a2 * a4 + a3 * a3) ->
  m7 = w64 (Z.shiftr m6 26 + 2 * a0 * a7 + 2 * a1 * a6 + 2 * a2 * a5 + 2 * a3 * a4) ->
  m8 = w64 (Z.shiftr m7 26 + 2 * a0 * a8 + 2 * a1 * a7 + 2 * a2 * a6 + 2 * a3 * a5 + a4 * a4) ->
  m9 = w64 (Z.shiftr m8 26 + 2 * a0 * a9 + 2 * a1 * a8 + 2 * a2 * a7 + 2 * a3 * a6 + 2 * a4 * a5) ->
  m10 = w64 (Z.shiftr m9 26 + 2 * a1 * a9 + 2 * a2 * a8 + 2 * a3 * a7 + 2 * a4 * a6 + a5 * a5) ->
  m11 = w64 (Z.shiftr m10 26 + 2 * a2 * a9 + 2 * a3 * a8 + 2 * a4 * a7 + 2 * a5 * a6) ->
  m12 = w64 (Z.shiftr m11 26 + 2 * a3 * a9 + 2 * a4 * a8 + 2 * a5 * a7 + a6 * a6) ->
  m13 = w64 (Z.shiftr m12 26 + 2 * a4 * a9 + 2 * a5 * a8 + 2 * a6 * a7) ->
  m14 = w64 (Z.shiftr m13 26 + 2 * a5 * a9 + 2 * a6 * a8 + a7 * a7) ->
  m15 = w64 (Z.shiftr m14 26 + 2 * a6 * a9 + 2 * a7 * a8) ->
  m16 = w64 (Z.shiftr m15 26 + 2 * a7 * a9 + a8 * a8) ->
  m17 = w64 (Z.shiftr m16 26 + 2 * a8 * a9) ->
  m18 = w64 (Z.shiftr m17 26 + a9 * a9) ->
  fe_sq (Fe a0 a1 a2 a3 a4 a5 a6 a7 a8 a9) = fe_red (Z.land m0 base_mask) (Z.land m1 base_mask) (Z.land m2 base_mask) (Z.land m3 base_mask) (Z.land m4 base_mask) (Z.land m5 base_mask) (Z.land m6 base_mask) (Z.land m7 base_mask) (Z.land m8 base_mask) (Z.land m9 base_mask) (Z.land m10 base_mask) (Z.land m11 base_mask) (Z.land m12 base_mask) (Z.land m13 base_mask) (Z.land m14 base_mask) (Z.land m15 base_mask) (Z.land m16 base_mask) (Z.land m17 base_mask) (Z.land m18 base_mask) (Z.shiftr m18 26).
Proof.
  intros E0 E1 E2 E3 E4 E5 E6 E7 E8 E9 E10 E11 E12 E13 E14 E15 E16 E17 E18. cbv beta iota zeta delta [fe_sq].
  rewrite <- E0, <- E1, <- E2, <- E3, <- E4, <- E5, <- E6, <- E7, <- E8, <- E9, <- E10, <- E11, <- E12, <- E13, <- E14, <- E15, <- E16, <- E17, <- E18. reflexivity.
Qed.
Lemma mul_ok_w a0 a1 a2 a3 a4 a5 a6 a7 a8 a9 b0 b1 b2 b3 b4 b5 b6 b7 b8 b9 : mag 8 (Fe a0 a1 a2 a3 a4 a5 a6 a7 a8 a9) -> mag 8 (Fe b0 b1 b2 b3 b4 b5 b6 b7 b8 b9) -> mag 1 (fe_mul (Fe a0 a1 a2 a3 a4 a5 a6 a7 a8 a9) (Fe b0 b1 b2 b3 b4 b5 b6 b7 b8 b9)) /\ cong p256k1 (fval (fe_mul (Fe a0 a1 a2 a3 a4 a5 a6 a7 a8 a9) (Fe b0 b1 b2 b3 b4 b5 b6 b7 b8 b9))) (fval (Fe a0 a1 a2 a3 a4 a5 a6 a7 a8 a9) * fval (Fe b0 b1 b2 b3 b4 b5 b6 b7 b8 b9)).
Proof.
  intros H0 H1.
  destruct (chain_ok (mul_cols a0 a1 a2 a3 a4 a5 a6 a7 a8 a9 b0 b1 b2 b3 b4 b5 b6 b7 b8 b9) mul_cols_us 0 0) as (V & B & F & _).
  { unfold mag in *. unfold mul_cols, mul_cols_us. cbv zeta. repeat apply Forall2_cons; try apply Forall2_nil; apply bnd_mul; unfold bnd; lia. }
  { lia. } { vm_compute. reflexivity. }
  destruct (ex_eq (w64 (a0 * b0))) as [m0 Hm0].
  destruct (ex_eq (w64 (Z.shiftr m0 26 + a0 * b1 + a1 * b0))) as [m1 Hm1].
  destruct (ex_eq (w64 (Z.shiftr m1 26 + a0 * b2 + a1 * b1 + a2 * b0))) as [m2 Hm2].
  destruct (ex_eq (w64 (Z.shiftr m2 26 + a0 * b3 + a1 * b2 + a2 * b1 + a3 * b0))) as [m3 Hm3].
  destruct (ex_eq (w64 (Z.shiftr m3 26 + a0 * b4 + a1 * b3 + a2 * b2 + a3 * b1 + a4 * b0))) as [m4 Hm4].
  destruct (ex_eq (w64 (Z.shiftr m4 26 + a0 * b5 + a1 * b4 + a2 * b3 + a3 * b2 + a4 * b1 + a5 * b0))) as [m5 Hm5].
  destruct (ex_eq (w64 (Z.shiftr m5 26 + a0 * b6 + a1 * b5 + a2 * b4 + a3 * b3 + a4 * b2 + a5 * b1 + a6 * b0))) as [m6 Hm6].
  destruct (ex_eq (w64 (Z.shiftr m6 26 + a0 * b7 + a1 * b6 + a2 * b5 + a3 * b4 + a4 * b3 + a5 * b2 + a6 * b1 + a7 * b0))) as [m7 Hm7].
  destruct (ex_eq (w64 (Z.shiftr m7 26 + a0 * b8 + a1 * b7 + a2 * b6 + a3 * b5 + a4 * b4 + a5 * b3 + a6 * b2 + a7 * b1 + a8 * b0))) as [m8 Hm8].
  destruct (ex_eq (w64 (Z.shiftr m8 26 + a0 * b9 + a1 * b8 + a2 * b7 + a3 * b6 + a4 * b5 + a5 * b4 + a6 * b3 + a7 * b2 + a8 * b1 + a9 * b0))) as [m9 Hm9].
  destruct (ex_eq (w64 (Z.shiftr m9 26 + a1 * b9 + a2 * b8 + a3 * b7 + a4 * b6 + a5 * b5 + a6 * b4 + a7 * b3 + a8 * b2 + a9 * b1))) as [m10 Hm10].
  destruct (ex_eq (w64 (Z.shiftr m10 26 + a2 * b9 + a3 * b8 + a4 * b7 + a5 * b6 + a6 * b5 + a7 * b4 + a8 * b3 + a9 * b2))) as [m11 Hm11].
  destruct (ex_eq (w64 (Z.shiftr m11 26 + a3 * b9 + a4 * b8 + a5 * b7 + a6 * b6 + a7 * b5 + a8 * b4 + a9 * b3))) as [m12 Hm12].
  destruct (ex_eq (w64 (Z.shiftr m12 26 + a4 * b9 + a5 * b8 + a6 * b7 + a7 * b6 + a8 * b5 + a9 * b4))) as [m13 Hm13].
  destruct (ex_eq (w64 (Z.shiftr m13 26 + a5 * b9 + a6 * b8 + a7 * b7 + a8 * b6 + a9 * b5))) as [m14 Hm14].
  destruct (ex_eq (w64 (Z.shiftr m14 26 + a6 * b9 + a7 * b8 + a8 * b7 + a9 * b6))) as [m15 Hm15].
  destruct (ex_eq (w64 (Z.shiftr m15 26 + a7 * b9 + a8 * b8 + a9 * b7))) as [m16 Hm16].
  destruct (ex_eq (w64 (Z.shiftr m16 26 + a8 * b9 + a9 * b8))) as [m17 Hm17].
  destruct (ex_eq (w64 (Z.shiftr m17 26 + a9 * b9))) as [m18 Hm18].
  rewrite (mul_chain a0 a1 a2 a3 a4 a5 a6 a7 a8 a9 b0 b1 b2 b3 b4 b5 b6 b7 b8 b9 m0 m1 m2 m3 m4 m5 m6 m7 m8 m9 m10 m11 m12 m13 m14 m15 m16 m17 m18 Hm0 Hm1 Hm2 Hm3 Hm4 Hm5 Hm6 Hm7 Hm8 Hm9 Hm10 Hm11 Hm12 Hm13 Hm14 Hm15 Hm16 Hm17 Hm18) in V, B, F.
  rewrite (mul_unfold a0 a1 a2 a3 a4 a5 a6 a7 a8 a9 b0 b1 b2 b3 b4 b5 b6 b7 b8 b9 m0 m1 m2 m3 m4 m5 m6 m7 m8 m9 m10 m11 m12 m13 m14 m15 m16 m17 m18 Hm0 Hm1 Hm2 Hm3 Hm4 Hm5 Hm6 Hm7 Hm8 Hm9 Hm10 Hm11 Hm12 Hm13 Hm14 Hm15 Hm16 Hm17 Hm18).
  clear Hm0 Hm1 Hm2 Hm3 Hm4 Hm5 Hm6 Hm7 Hm8 Hm9 Hm10 Hm11 Hm12 Hm13 Hm14 Hm15 Hm16 Hm17 Hm18. cbn [fst snd] in V, B, F. rewrite shr26.
  assert (OB : out 0 mul_cols_us <= 2 ^ 50 + 2 ^ 36 - 1) by (vm_compute; discriminate).
  assert (B8 : 0 <= m18 <= 2 ^ 50 + 2 ^ 36 - 1) by lia. clear B OB.
  repeat (apply Forall_cons_iff in F; let G := fresh "G" in destruct F as [G F]). clear F.
  assert (B19 : 0 <= m18 / 2 ^ 26 <= 2 ^ 24 + 2 ^ 10) by (clear -B8; Z.div_mod_to_equations; lia).
  destruct (red_ok (Z.land m0 base_mask) (Z.land m1 base_mask) (Z.land m2 base_mask) (Z.land m3 base_mask) (Z.land m4 base_mask) (Z.land m5 base_mask) (Z.land m6 base_mask) (Z.land m7 base_mask) (Z.land m8 base_mask) (Z.land m9 base_mask) (Z.land m10 base_mask) (Z.land m11 base_mask) (Z.land m12 base_mask) (Z.land m13 base_mask) (Z.land m14 base_mask) (Z.land m15 base_mask) (Z.land m16 base_mask) (Z.land m17 base_mask) (Z.land m18 base_mask) (m18 / 2 ^ 26) G G0 G1 G2 G3 G4 G5 G6 G7 G8 G9 G10 G11 G12 G13 G14 G15 G16 G17 B19) as [R1 R2]. split; [exact R1|].
  rewrite R2. apply cong_p. clear R1 R2. change (0 / 2 ^ 26) with 0 in V. change (26 * Z.of_nat (length (mul_cols a0 a1 a2 a3 a4 a5 a6 a7 a8 a9 b0 b1 b2 b3 b4 b5 b6 b7 b8 b9))) with 494 in V.
  set (q := m18 / 2 ^ 26) in *. clearbody q. transitivity (evc (mul_cols a0 a1 a2 a3 a4 a5 a6 a7 a8 a9 b0 b1 b2 b3 b4 b5 b6 b7 b8 b9)); [|clear; unfold fval, mul_cols; cbn [evc sumz]; ring].
  rewrite Z.add_0_l in V. rewrite <- V. clear. cbn [evw]. ring.
Qed.
Lemma sq_ok_w a0 a1 a2 a3 a4 a5 a6 a7 a8 a9 : mag 8 (Fe a0 a1 a2 a3 a4 a5 a6 a7 a8 a9) -> mag 1 (fe_sq (Fe a0 a1 a2 a3 a4 a5 a6 a7 a8 a9)) /\ cong p256k1 (fval (fe_sq (Fe a0 a1 a2 a3 a4 a5 a6 a7 a8 a9))) (fval (Fe a0 a1 a2 a3 a4 a5 a6 a7 a8 a9) * fval (Fe a0 a1 a2 a3 a4 a5 a6 a7 a8 a9)).
Proof.
  intros H0.
  destruct (chain_ok (sq_cols a0 a1 a2 a3 a4 a5 a6 a7 a8 a9) sq_cols_us 0 0) as (V & B & F & _).
  { unfold mag in *. unfold sq_cols, sq_cols_us. cbv zeta. repeat apply Forall2_cons; try apply Forall2_nil; try (apply bnd_mul; [|unfold bnd; lia]); unfold bnd; lia. }
  { lia. } { vm_compute. reflexivity. }
  destruct (ex_eq (w64 (a0 * a0))) as [m0 Hm0].
  destruct (ex_eq (w64 (Z.shiftr m0 26 + 2 * a0 * a1))) as [m1 Hm1].
  destruct (ex_eq (w64 (Z.shiftr m1 26 + 2 * a0 * a2 + a1 * a1))) as [m2 Hm2].
  destruct (ex_eq (w64 (Z.shiftr m2 26 + 2 * a0 * a3 + 2 * a1 * a2))) as [m3 Hm3].
  destruct (ex_eq (w64 (Z.shiftr m3 26 + 2 * a0 * a4 + 2 * a1 * a3 + a2 * a2))) as [m4 Hm4].
  destruct (ex_eq (w64 (Z.shiftr m4 26 + 2 * a0 * a5 + 2 * a1 * a4 + 2 * a2 * a3))) as [m5 Hm5].
  destruct (ex_eq (w64 (Z.shiftr m5 26 + 2 * a0 * a6 + 2 * a1 * a5 + 2 * a2 * a4 + a3 * a3))) as [m6 Hm6].
  destruct (ex_eq (w64 (Z.shiftr m6 26 + 2 * a0 * a7 + 2 * a1 * a6 + 2 * a2 * a5 + 2 * a3 * a4))) as [m7 Hm7].
  destruct (ex_eq (w64 (Z.shiftr m7 26 + 2 * a0 * a8 + 2 * a1 * a7 + 2 * a2 * a6 + 2 * a3 * a5 + a4 * a4))) as [m8 Hm8].
  destruct (ex_eq (w64 (Z.shiftr m8 26 + 2 * a0 * a9 + 2 * a1 * a8 + 2 * a2 * a7 + 2 * a3 * a6 + 2 * a4 * a5))) as [m9 Hm9].
  destruct (ex_eq (w64 (Z.shiftr m9 26 + 2 * a1 * a9 + 2 * a2 * a8 + 2 * a3 * a7 + 2 * a4 * a6 + a5 * a5))) as [m10 Hm10].
  destruct (ex_eq (w64 (Z.shiftr m10 26 + 2 * a2 * a9 + 2 * a3 * a8 + 2 * a4 * a7 + 2 * a5 * a6))) as [m11 Hm11].
  destruct (ex_eq (w64 (Z.shiftr m11 26 + 2 * a3 * a9 + 2 * a4 * a8 + 2 * a5 * a7 + a6 * a6))) as [m12 Hm12].
  destruct (ex_eq (w64 (Z.shiftr m12 26 + 2 * a4 * a9 + 2 * a5 * a8 + 2 * a6 * a7))) as [m13 Hm13].
  destruct (ex_eq (w64 (Z.shiftr m13 26 + 2 * a5 * a9 + 2 * a6 * a8 + a7 * a7))) as [m14 Hm14].
  destruct (ex_eq (w64 (Z.shiftr m14 26 + 2 * a6 * a9 + 2 * a7 * a8))) as [m15 Hm15].
  destruct (ex_eq (w64 (Z.shiftr m15 26 + 2 * a7 * a9 + a8 * a8))) as [m16 Hm16].
  destruct (ex_eq (w64 (Z.shiftr m16 26 + 2 * a8 * a9))) as [m17 Hm17].
  destruct (ex_eq (w64 (Z.shiftr m17 26 + a9 * a9))) as [m18 Hm18].
  rewrite (sq_chain a0 a1 a2 a3 a4 a5 a6 a7 a8 a9 m0 m1 m2 m3 m4 m5 m6 m7 m8 m9 m10 m11 m12 m13 m14 m15 m16 m17 m18 Hm0 Hm1 Hm2 Hm3 Hm4 Hm5 Hm6 Hm7 Hm8 Hm9 Hm10 Hm11 Hm12 Hm13 Hm14 Hm15 Hm16 Hm17 Hm18) in V, B, F.
  rewrite (sq_unfold a0 a1 a2 a3 a4 a5 a6 a7 a8 a9 m0 m1 m2 m3 m4 m5 m6 m7 m8 m9 m10 m11 m12 m13 m14 m15 m16 m17 m18 Hm0 Hm1 Hm2 Hm3 Hm4 Hm5 Hm6 Hm7 Hm8 Hm9 Hm10 Hm11 Hm12 Hm13 Hm14 Hm15 Hm16 Hm17 Hm18).
  clear Hm0 Hm1 Hm2 Hm3 Hm4 Hm5 Hm6 Hm7 Hm8 Hm9 Hm10 Hm11 Hm12 Hm13 Hm14 Hm15 Hm16 Hm17 Hm18. cbn [fst snd] in V, B, F. rewrite shr26.
  assert (OB : out 0 sq_cols_us <= 2 ^ 50 + 2 ^ 36 - 1) by (vm_compute; discriminate).
  assert (B8 : 0 <= m18 <= 2 ^ 50 + 2 ^ 36 - 1) by lia. clear B OB.
  repeat (apply Forall_cons_iff in F; let G := fresh "G" in destruct F as [G F]). clear F.
  assert (B19 : 0 <= m18 / 2 ^ 26 <= 2 ^ 24 + 2 ^ 10) by (clear -B8; Z.div_mod_to_equations; lia).
  destruct (red_ok (Z.land m0 base_mask) (Z.land m1 base_mask) (Z.land m2 base_mask) (Z.land m3 base_mask) (Z.land m4 base_mask) (Z.land m5 base_mask) (Z.land m6 base_mask) (Z.land m7 base_mask) (Z.land m8 base_mask) (Z.land m9 base_mask) (Z.land m10 base_mask) (Z.land m11 base_mask) (Z.land m12 base_mask) (Z.land m13 base_mask) (Z.land m14 base_mask) (Z.land m15 base_mask) (Z.land m16 base_mask) (Z.land m17 base_mask) (Z.land m18 base_mask) (m18 / 2 ^ 26) G G0 G1 G2 G3 G4 G5 G6 G7 G8 G9 G10 G11 G12 G13 G14 G15 G16 G17 B19) as [R1 R2]. split; [exact R1|].
  rewrite R2. apply cong_p. clear R1 R2. change (0 / 2 ^ 26) with 0 in V. change (26 * Z.of_nat (length (sq_cols a0 a1 a2 a3 a4 a5 a6 a7 a8 a9))) with 494 in V.
  set (q := m18 / 2 ^ 26) in *. clearbody q. transitivity (evc (sq_cols a0 a1 a2 a3 a4 a5 a6 a7 a8 a9)); [|clear; unfold fval, sq_cols; cbn [evc sumz]; ring].
  rewrite Z.add_0_l in V. rewrite <- V. clear. cbn [evw]. ring.
Qed.
