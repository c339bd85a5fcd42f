(** SecpOps.v -- negation, addition, bytes, inversion and square root of field.go: what they compute. *)
From Verif Require Import Base BigInt NumTh SecpField SecpFieldThm SecpNorm.

(** ** Negate, Add, AddInt, MulInt *)
Lemma mag_mono m n a : 0 <= m <= n -> mag m a -> mag n a.
Proof. destruct a. unfold mag, lim, lim9. intros. repeat split; try tauto; lia. Qed.
Lemma canon_mag a : canon a -> mag 1 a /\ 0 <= fval a < p256k1.
Proof. destruct a. unfold canon, mag, lim, lim9, in26. intros H. repeat split; try tauto; unfold fval in *; lia. Qed.
Lemma neg_ok a m : 0 <= m <= 62 -> mag m a -> mag (m + 1) (fe_neg a m) /\ fval (fe_neg a m) = (m + 1) * p256k1 - fval a.
Proof.
  destruct a as [a0 a1 a2 a3 a4 a5 a6 a7 a8 a9]. unfold mag, lim, lim9, fe_neg, prime_w0, prime_w1, base_mask, msb_mask. intros Hm M.
  destruct M as (M0 & M1 & M2 & M3 & M4 & M5 & M6 & M7 & M8 & M9).
  rewrite !w32_small by lia. split; [repeat split; lia|]. unfold fval, p256k1. lia.
Qed.
Lemma add_ok a b m n : 0 <= m -> 0 <= n -> m + n <= 63 -> mag m a -> mag n b -> mag (m + n) (fe_add a b) /\ fval (fe_add a b) = fval a + fval b.
Proof.
  destruct a as [a0 a1 a2 a3 a4 a5 a6 a7 a8 a9], b as [b0 b1 b2 b3 b4 b5 b6 b7 b8 b9]. unfold mag, lim, lim9, fe_add. intros Hm Hn H M N.
  destruct M as (M0 & M1 & M2 & M3 & M4 & M5 & M6 & M7 & M8 & M9). destruct N as (N0 & N1 & N2 & N3 & N4 & N5 & N6 & N7 & N8 & N9).
  rewrite (w32_small (a0 + b0)) by (clear -Hm Hn H M0 N0; lia). rewrite (w32_small (a1 + b1)) by (clear -Hm Hn H M1 N1; lia).
  rewrite (w32_small (a2 + b2)) by (clear -Hm Hn H M2 N2; lia). rewrite (w32_small (a3 + b3)) by (clear -Hm Hn H M3 N3; lia).
  rewrite (w32_small (a4 + b4)) by (clear -Hm Hn H M4 N4; lia). rewrite (w32_small (a5 + b5)) by (clear -Hm Hn H M5 N5; lia).
  rewrite (w32_small (a6 + b6)) by (clear -Hm Hn H M6 N6; lia). rewrite (w32_small (a7 + b7)) by (clear -Hm Hn H M7 N7; lia).
  rewrite (w32_small (a8 + b8)) by (clear -Hm Hn H M8 N8; lia). rewrite (w32_small (a9 + b9)) by (clear -Hm Hn H M9 N9; lia).
  split; [lia|]. unfold fval. clear. ring.
Qed.
Lemma add_int_ok a u m : 0 <= m <= 62 -> 0 <= u <= 2 ^ 26 -> mag m a -> mag (m + 1) (fe_add_int a u) /\ fval (fe_add_int a u) = fval a + u.
Proof.
  destruct a as [a0 a1 a2 a3 a4 a5 a6 a7 a8 a9]. unfold mag, lim, lim9, fe_add_int. intros Hm Hu M.
  destruct M as (M0 & M1 & M2 & M3 & M4 & M5 & M6 & M7 & M8 & M9).
  rewrite (w32_small u) by (clear -Hu; lia). rewrite (w32_small (a0 + u)) by (clear -Hu M0 Hm; lia). split; [lia|]. unfold fval. clear. ring.
Qed.
Lemma mul_word m u x l : 0 <= m -> 0 <= u -> m * u <= 63 -> 0 <= l <= 2 ^ 26 + 2 ^ 19 -> 0 <= x <= m * l -> 0 <= x * u <= m * u * l /\ 0 <= x * u < 2 ^ 32.
Proof. intros. assert (0 <= x * u <= m * l * u) by nia. assert (m * u * l = m * l * u) by ring. assert (m * u * l <= 63 * l) by nia. lia. Qed.
Lemma mul_int_ok a u m : 0 <= m -> 0 <= u < 2 ^ 32 -> m * u <= 63 -> mag m a -> mag (m * u) (fe_mul_int a u) /\ fval (fe_mul_int a u) = fval a * u.
Proof.
  destruct a as [a0 a1 a2 a3 a4 a5 a6 a7 a8 a9]. unfold mag, fe_mul_int. intros Hm Hu Hmu M.
  destruct M as (M0 & M1 & M2 & M3 & M4 & M5 & M6 & M7 & M8 & M9). rewrite (w32_small u) by (clear -Hu; lia). cbv zeta.
  assert (K : forall x, 0 <= x <= m * lim -> 0 <= x * u <= m * u * lim /\ 0 <= x * u < 2 ^ 32).
  { intros x X. apply mul_word; try assumption; [clear -Hu; lia|unfold lim; clear; lia]. }
  assert (K9 : 0 <= a9 * u <= m * u * lim9 /\ 0 <= a9 * u < 2 ^ 32).
  { apply mul_word; try assumption; [clear -Hu; lia|unfold lim9; clear; lia]. }
  apply K in M0, M1, M2, M3, M4, M5, M6, M7, M8.
  rewrite !w32_small by tauto. split; [tauto|]. unfold fval. clear. ring.
Qed.
Lemma int_ok u : 0 <= u <= 2 ^ 26 -> mag 1 (fe_int u) /\ fval (fe_int u) = u.
Proof. intro H. unfold fe_int, mag, lim, lim9. rewrite w32_small by (clear -H; lia). split; [repeat split; clear -H; lia|unfold fval; clear; ring]. Qed.
Lemma mul_ok a b : mag 8 a -> mag 8 b -> mag 1 (fe_mul a b) /\ cong p256k1 (fval (fe_mul a b)) (fval a * fval b).
Proof. destruct a, b. apply mul_ok_w. Qed.
Lemma sq_ok a : mag 8 a -> mag 1 (fe_sq a) /\ cong p256k1 (fval (fe_sq a)) (fval a * fval a).
Proof. destruct a. apply sq_ok_w. Qed.

(** ** IsZero, IsOdd, Equals *)
Lemma evw_inj : forall l l', length l = length l' -> Forall in26 l -> Forall in26 l' -> evw l = evw l' -> l = l'.
Proof.
  induction l as [|x l IH]; intros [|y l'] L F F' E; try (discriminate L); [reflexivity|]. cbn [evw] in E.
  apply Forall_cons_iff in F. destruct F as [X F]. apply Forall_cons_iff in F'. destruct F' as [Y F']. unfold in26 in X, Y.
  assert (x = y) by lia. subst y. f_equal. apply IH; auto. lia.
Qed.
Definition words (a : fe) : list Z := [n0 a; n1 a; n2 a; n3 a; n4 a; n5 a; n6 a; n7 a; n8 a; n9 a].
Lemma fval_evw a : fval a = evw (words a). Proof. destruct a as [a0 a1 a2 a3 a4 a5 a6 a7 a8 a9]. unfold fval, words. cbn [evw n0 n1 n2 n3 n4 n5 n6 n7 n8 n9]. ring. Qed.
Lemma canon_words a : canon a -> Forall in26 (words a).
Proof. destruct a as [a0 a1 a2 a3 a4 a5 a6 a7 a8 a9]. unfold canon, words. cbn [n0 n1 n2 n3 n4 n5 n6 n7 n8 n9]. intro H. repeat constructor; unfold in26 in *; try apply H; lia. Qed.
Lemma words_inj a b : words a = words b -> a = b.
Proof. destruct a as [a0 a1 a2 a3 a4 a5 a6 a7 a8 a9], b as [b0 b1 b2 b3 b4 b5 b6 b7 b8 b9]. unfold words. cbn [n0 n1 n2 n3 n4 n5 n6 n7 n8 n9]. intro H. congruence. Qed.
Lemma canon_inj a b : canon a -> canon b -> fval a = fval b -> a = b.
Proof. intros A B E. apply words_inj. apply evw_inj; [reflexivity|apply canon_words; auto..|]. rewrite <- !fval_evw. exact E. Qed.
Lemma is_zero_ok a : canon a -> fe_is_zero a = (fval a =? 0).
Proof.
  intro C. destruct a as [a0 a1 a2 a3 a4 a5 a6 a7 a8 a9]. unfold fe_is_zero. apply Bool.eq_iff_eq_true. rewrite !Z.eqb_eq, !Z.lor_eq_0_iff.
  unfold canon, in26 in C. unfold fval in *. lia.
Qed.
Lemma eqb_ok a b : canon a -> canon b -> fe_eqb a b = (fval a =? fval b).
Proof.
  intros A B. apply Bool.eq_iff_eq_true. rewrite Z.eqb_eq. transitivity (a = b); [|split; [intros ->; reflexivity|apply canon_inj; auto]].
  destruct a as [a0 a1 a2 a3 a4 a5 a6 a7 a8 a9], b as [b0 b1 b2 b3 b4 b5 b6 b7 b8 b9]. unfold fe_eqb. rewrite Z.eqb_eq, !Z.lor_eq_0_iff, !Z.lxor_eq_0_iff.
  split; [intros; repeat match goal with H : _ /\ _ |- _ => destruct H end; congruence|intro H; repeat split; congruence].
Qed.
Lemma is_odd_ok a : fe_is_odd a = Z.odd (fval a).
Proof.
  destruct a as [a0 a1 a2 a3 a4 a5 a6 a7 a8 a9]. unfold fe_is_odd. cbn [n0]. change 1 with (Z.ones 1) at 1. rewrite Z.land_ones by lia.
  change (2 ^ 1) with 2. rewrite Zmod_odd. unfold fval.
  replace (a0 + 2 ^ 26 * a1 + 2 ^ 52 * a2 + 2 ^ 78 * a3 + 2 ^ 104 * a4 + 2 ^ 130 * a5 + 2 ^ 156 * a6 + 2 ^ 182 * a7 + 2 ^ 208 * a8 + 2 ^ 234 * a9)
    with (a0 + 2 * (2 ^ 25 * a1 + 2 ^ 51 * a2 + 2 ^ 77 * a3 + 2 ^ 103 * a4 + 2 ^ 129 * a5 + 2 ^ 155 * a6 + 2 ^ 181 * a7 + 2 ^ 207 * a8 + 2 ^ 233 * a9)) by ring.
  rewrite Z.odd_add_mul_2. destruct (Z.odd a0); reflexivity.
Qed.

(** ** SetBytes, SetByteSlice, Bytes *)
Lemma lor_add a b k : 0 <= a < 2 ^ k -> 0 <= k -> 0 <= b -> Z.lor a (2 ^ k * b) = a + 2 ^ k * b.
Proof.
  intros A K B. symmetry. rewrite Z.lor_comm, Z.add_comm. rewrite Z.mul_comm, <- Z.shiftl_mul_pow2 by lia.
  rewrite <- Z.lxor_lor; [apply Z.add_nocarry_lxor|].
  - apply Z.bits_inj'. intros i Hi. rewrite Z.land_spec, Z.bits_0. destruct (Z_lt_le_dec i k) as [L|L].
    + rewrite Z.shiftl_spec_low by lia. reflexivity.
    + destruct (Z.eq_dec a 0) as [->|N]; [rewrite Z.bits_0; apply Bool.andb_false_r|].
      rewrite (Z.bits_above_log2 a i); [apply Bool.andb_false_r|lia|]. apply Z.lt_le_trans with k; [apply Z.log2_lt_pow2; lia|lia].
  - apply Z.bits_inj'. intros i Hi. rewrite Z.land_spec, Z.bits_0. destruct (Z_lt_le_dec i k) as [L|L].
    + rewrite Z.shiftl_spec_low by lia. reflexivity.
    + destruct (Z.eq_dec a 0) as [->|N]; [rewrite Z.bits_0; apply Bool.andb_false_r|].
      rewrite (Z.bits_above_log2 a i); [apply Bool.andb_false_r|lia|]. apply Z.lt_le_trans with k; [apply Z.log2_lt_pow2; lia|lia].
Qed.
Lemma lor_shl a b k : 0 <= a < 2 ^ k -> 0 <= k -> 0 <= b -> 2 ^ k * b < 2 ^ 32 -> Z.lor a (shl32 b k) = a + 2 ^ k * b.
Proof.
  intros A K B L. unfold shl32. rewrite Z.shiftl_mul_pow2 by lia. rewrite (Z.mul_comm b). assert (0 <= 2 ^ k * b) by nia.
  rewrite w32_small by lia. apply lor_add; auto.
Qed.
Lemma and_mod x k : 0 <= k -> Z.land x (Z.ones k) = x mod 2 ^ k. Proof. apply Z.land_ones. Qed.
Lemma divmod_ex x k : 0 < k -> 0 <= x -> exists q r, x / k = q /\ x mod k = r /\ x = k * q + r /\ 0 <= r < k /\ 0 <= q.
Proof. intros K X. exists (x / k), (x mod k). pose proof (Z.div_mod x k ltac:(lia)). pose proof (Z.mod_pos_bound x k K). pose proof (Z.div_pos x k X K). lia. Qed.
Lemma wd_a x y z w : 0 <= x < 256 -> 0 <= y < 256 -> 0 <= z < 256 -> 0 <= w < 256 -> 
  Z.lor (Z.lor (Z.lor x (shl32 y 8)) (shl32 z 16)) (shl32 (Z.land w 3) 24) = x + 2 ^ 8 * y + 2 ^ 16 * z + 2 ^ 24 * (w mod 2 ^ 2).
Proof.
  intros X Y Z0 W0. change 3 with (Z.ones 2). rewrite and_mod by lia. pose proof (Z.mod_pos_bound w (2 ^ 2) ltac:(lia)). rewrite (lor_shl _ y) by lia. rewrite (lor_shl _ z) by lia. rewrite lor_shl by lia. reflexivity.
Qed.
Lemma wd_b x y z w : 0 <= x < 256 -> 0 <= y < 256 -> 0 <= z < 256 -> 0 <= w < 256 -> 
  Z.lor (Z.lor (Z.lor (Z.shiftr x 2) (shl32 y 6)) (shl32 z 14)) (shl32 (Z.land w 15) 22) = x / 2 ^ 2 + 2 ^ 6 * y + 2 ^ 14 * z + 2 ^ 22 * (w mod 2 ^ 4).
Proof.
  intros X Y Z0 W0. rewrite Z.shiftr_div_pow2 by lia. assert (0 <= x / 2 ^ 2 < 2 ^ 6) by (clear -X; Z.div_mod_to_equations; lia). change 15 with (Z.ones 4). rewrite and_mod by lia. pose proof (Z.mod_pos_bound w (2 ^ 4) ltac:(lia)). rewrite (lor_shl _ y) by lia. rewrite (lor_shl _ z) by lia. rewrite lor_shl by lia. reflexivity.
Qed.
Lemma wd_c x y z w : 0 <= x < 256 -> 0 <= y < 256 -> 0 <= z < 256 -> 0 <= w < 256 -> 
  Z.lor (Z.lor (Z.lor (Z.shiftr x 4) (shl32 y 4)) (shl32 z 12)) (shl32 (Z.land w 63) 20) = x / 2 ^ 4 + 2 ^ 4 * y + 2 ^ 12 * z + 2 ^ 20 * (w mod 2 ^ 6).
Proof.
  intros X Y Z0 W0. rewrite Z.shiftr_div_pow2 by lia. assert (0 <= x / 2 ^ 4 < 2 ^ 4) by (clear -X; Z.div_mod_to_equations; lia). change 63 with (Z.ones 6). rewrite and_mod by lia. pose proof (Z.mod_pos_bound w (2 ^ 6) ltac:(lia)). rewrite (lor_shl _ y) by lia. rewrite (lor_shl _ z) by lia. rewrite lor_shl by lia. reflexivity.
Qed.
Lemma wd_d x y z w : 0 <= x < 256 -> 0 <= y < 256 -> 0 <= z < 256 -> 0 <= w < 256 -> 
  Z.lor (Z.lor (Z.lor (Z.shiftr x 6) (shl32 y 2)) (shl32 z 10)) (shl32 w 18) = x / 2 ^ 6 + 2 ^ 2 * y + 2 ^ 10 * z + 2 ^ 18 * w.
Proof.
  intros X Y Z0 W0. rewrite Z.shiftr_div_pow2 by lia. assert (0 <= x / 2 ^ 6 < 2 ^ 2) by (clear -X; Z.div_mod_to_equations; lia). rewrite (lor_shl _ y) by lia. rewrite (lor_shl _ z) by lia. rewrite lor_shl by lia. reflexivity.
Qed.
Lemma wd_e x y z : 0 <= x < 256 -> 0 <= y < 256 -> 0 <= z < 256 -> 
  Z.lor (Z.lor (Z.shiftr x 2) (shl32 y 6)) (shl32 z 14) = x / 2 ^ 2 + 2 ^ 6 * y + 2 ^ 14 * z.
Proof.
  intros X Y Z0. rewrite Z.shiftr_div_pow2 by lia. assert (0 <= x / 2 ^ 2 < 2 ^ 6) by (clear -X; Z.div_mod_to_equations; lia). rewrite (lor_shl _ y) by lia. rewrite (lor_shl _ z) by lia. reflexivity.
Qed.
Lemma dm k x : 0 < k -> x = k * (x / k) + x mod k /\ 0 <= x mod k < k. Proof. intro. split; [apply Z.div_mod; lia|apply Z.mod_pos_bound; auto]. Qed.
Lemma dq k m x : 0 < k -> 0 < m -> 0 <= x < k * m -> 0 <= x / k < m. Proof. intros. split; [apply Z.div_pos; lia|apply Z.div_lt_upper_bound; lia]. Qed.
Lemma set_bytes_ok b : length b = 32%nat -> mag 1 (fe_set_bytes b) /\ fval (fe_set_bytes b) = of_be b.
Proof.
  intro L. destruct b as [|c0 b]; [discriminate L|]. destruct b as [|c1 b]; [discriminate L|]. destruct b as [|c2 b]; [discriminate L|]. destruct b as [|c3 b]; [discriminate L|]. destruct b as [|c4 b]; [discriminate L|]. destruct b as [|c5 b]; [discriminate L|]. destruct b as [|c6 b]; [discriminate L|]. destruct b as [|c7 b]; [discriminate L|]. destruct b as [|c8 b]; [discriminate L|]. destruct b as [|c9 b]; [discriminate L|]. destruct b as [|c10 b]; [discriminate L|]. destruct b as [|c11 b]; [discriminate L|]. destruct b as [|c12 b]; [discriminate L|]. destruct b as [|c13 b]; [discriminate L|]. destruct b as [|c14 b]; [discriminate L|]. destruct b as [|c15 b]; [discriminate L|]. destruct b as [|c16 b]; [discriminate L|]. destruct b as [|c17 b]; [discriminate L|]. destruct b as [|c18 b]; [discriminate L|]. destruct b as [|c19 b]; [discriminate L|]. destruct b as [|c20 b]; [discriminate L|]. destruct b as [|c21 b]; [discriminate L|]. destruct b as [|c22 b]; [discriminate L|]. destruct b as [|c23 b]; [discriminate L|]. destruct b as [|c24 b]; [discriminate L|]. destruct b as [|c25 b]; [discriminate L|]. destruct b as [|c26 b]; [discriminate L|]. destruct b as [|c27 b]; [discriminate L|]. destruct b as [|c28 b]; [discriminate L|]. destruct b as [|c29 b]; [discriminate L|]. destruct b as [|c30 b]; [discriminate L|]. destruct b as [|c31 b]; [discriminate L|]. destruct b; [|discriminate L]. clear L.
  unfold fe_set_bytes, of_be. cbn [fold_left].
  repeat match goal with |- context [Z.to_nat ?k] => let v := eval vm_compute in (Z.to_nat k) in change (Z.to_nat k) with v end. cbn [nth].
  pose proof (bz_range c0) as R0. set (b0 := bz c0) in *. clearbody b0. clear c0.
  pose proof (bz_range c1) as R1. set (b1 := bz c1) in *. clearbody b1. clear c1.
  pose proof (bz_range c2) as R2. set (b2 := bz c2) in *. clearbody b2. clear c2.
  pose proof (bz_range c3) as R3. set (b3 := bz c3) in *. clearbody b3. clear c3.
  pose proof (bz_range c4) as R4. set (b4 := bz c4) in *. clearbody b4. clear c4.
  pose proof (bz_range c5) as R5. set (b5 := bz c5) in *. clearbody b5. clear c5.
  pose proof (bz_range c6) as R6. set (b6 := bz c6) in *. clearbody b6. clear c6.
  pose proof (bz_range c7) as R7. set (b7 := bz c7) in *. clearbody b7. clear c7.
  pose proof (bz_range c8) as R8. set (b8 := bz c8) in *. clearbody b8. clear c8.
  pose proof (bz_range c9) as R9. set (b9 := bz c9) in *. clearbody b9. clear c9.
  pose proof (bz_range c10) as R10. set (b10 := bz c10) in *. clearbody b10. clear c10.
  pose proof (bz_range c11) as R11. set (b11 := bz c11) in *. clearbody b11. clear c11.
  pose proof (bz_range c12) as R12. set (b12 := bz c12) in *. clearbody b12. clear c12.
  pose proof (bz_range c13) as R13. set (b13 := bz c13) in *. clearbody b13. clear c13.
  pose proof (bz_range c14) as R14. set (b14 := bz c14) in *. clearbody b14. clear c14.
  pose proof (bz_range c15) as R15. set (b15 := bz c15) in *. clearbody b15. clear c15.
  pose proof (bz_range c16) as R16. set (b16 := bz c16) in *. clearbody b16. clear c16.
  pose proof (bz_range c17) as R17. set (b17 := bz c17) in *. clearbody b17. clear c17.
  pose proof (bz_range c18) as R18. set (b18 := bz c18) in *. clearbody b18. clear c18.
  pose proof (bz_range c19) as R19. set (b19 := bz c19) in *. clearbody b19. clear c19.
  pose proof (bz_range c20) as R20. set (b20 := bz c20) in *. clearbody b20. clear c20.
  pose proof (bz_range c21) as R21. set (b21 := bz c21) in *. clearbody b21. clear c21.
  pose proof (bz_range c22) as R22. set (b22 := bz c22) in *. clearbody b22. clear c22.
  pose proof (bz_range c23) as R23. set (b23 := bz c23) in *. clearbody b23. clear c23.
  pose proof (bz_range c24) as R24. set (b24 := bz c24) in *. clearbody b24. clear c24.
  pose proof (bz_range c25) as R25. set (b25 := bz c25) in *. clearbody b25. clear c25.
  pose proof (bz_range c26) as R26. set (b26 := bz c26) in *. clearbody b26. clear c26.
  pose proof (bz_range c27) as R27. set (b27 := bz c27) in *. clearbody b27. clear c27.
  pose proof (bz_range c28) as R28. set (b28 := bz c28) in *. clearbody b28. clear c28.
  pose proof (bz_range c29) as R29. set (b29 := bz c29) in *. clearbody b29. clear c29.
  pose proof (bz_range c30) as R30. set (b30 := bz c30) in *. clearbody b30. clear c30.
  pose proof (bz_range c31) as R31. set (b31 := bz c31) in *. clearbody b31. clear c31.
  rewrite wd_a by assumption. rewrite wd_b by assumption. rewrite wd_c by assumption. rewrite wd_d by assumption. rewrite wd_a by assumption. rewrite wd_b by assumption. rewrite wd_c by assumption. rewrite wd_d by assumption. rewrite wd_a by assumption. rewrite wd_e by assumption.
  destruct (dm (2 ^ 2) b28 ltac:(lia)) as [D28 M28]. pose proof (dq (2 ^ 2) (2 ^ 6) b28 ltac:(lia) ltac:(lia) R28) as Q28. set (q28 := b28 / 2 ^ 2) in *. set (r28 := b28 mod 2 ^ 2) in *. clearbody q28 r28.
  destruct (dm (2 ^ 4) b25 ltac:(lia)) as [D25 M25]. pose proof (dq (2 ^ 4) (2 ^ 4) b25 ltac:(lia) ltac:(lia) R25) as Q25. set (q25 := b25 / 2 ^ 4) in *. set (r25 := b25 mod 2 ^ 4) in *. clearbody q25 r25.
  destruct (dm (2 ^ 6) b22 ltac:(lia)) as [D22 M22]. pose proof (dq (2 ^ 6) (2 ^ 2) b22 ltac:(lia) ltac:(lia) R22) as Q22. set (q22 := b22 / 2 ^ 6) in *. set (r22 := b22 mod 2 ^ 6) in *. clearbody q22 r22.
  destruct (dm (2 ^ 2) b15 ltac:(lia)) as [D15 M15]. pose proof (dq (2 ^ 2) (2 ^ 6) b15 ltac:(lia) ltac:(lia) R15) as Q15. set (q15 := b15 / 2 ^ 2) in *. set (r15 := b15 mod 2 ^ 2) in *. clearbody q15 r15.
  destruct (dm (2 ^ 4) b12 ltac:(lia)) as [D12 M12]. pose proof (dq (2 ^ 4) (2 ^ 4) b12 ltac:(lia) ltac:(lia) R12) as Q12. set (q12 := b12 / 2 ^ 4) in *. set (r12 := b12 mod 2 ^ 4) in *. clearbody q12 r12.
  destruct (dm (2 ^ 6) b9 ltac:(lia)) as [D9 M9]. pose proof (dq (2 ^ 6) (2 ^ 2) b9 ltac:(lia) ltac:(lia) R9) as Q9. set (q9 := b9 / 2 ^ 6) in *. set (r9 := b9 mod 2 ^ 6) in *. clearbody q9 r9.
  destruct (dm (2 ^ 2) b2 ltac:(lia)) as [D2 M2]. pose proof (dq (2 ^ 2) (2 ^ 6) b2 ltac:(lia) ltac:(lia) R2) as Q2. set (q2 := b2 / 2 ^ 2) in *. set (r2 := b2 mod 2 ^ 2) in *. clearbody q2 r2.
  split; [unfold mag, lim, lim9; lia|]. unfold fval. lia.
Qed.
Lemma sp_a a : 0 <= a < 2 ^ 26 -> a = a mod 2 ^ 8 + 2 ^ 8 * ((a / 2 ^ 8) mod 2 ^ 8) + 2 ^ 16 * ((a / 2 ^ 16) mod 2 ^ 8) + 2 ^ 24 * ((a / 2 ^ 24) mod 2 ^ 2).
Proof.
  intro H. assert (E2 : a / 2 ^ 16 = (a / 2 ^ 8) / 2 ^ 8) by (rewrite Z.div_div by lia; reflexivity). assert (E3 : a / 2 ^ 24 = (a / 2 ^ 16) / 2 ^ 8) by (rewrite Z.div_div by lia; reflexivity). set (x1 := a / 2 ^ 8) in *. set (x2 := a / 2 ^ 16) in *. set (x3 := a / 2 ^ 24) in *. pose proof (Z.div_mod a (2 ^ 8) ltac:(lia)) as D0. fold x1 in D0. pose proof (Z.div_mod x1 (2 ^ 8) ltac:(lia)) as D1. rewrite <- E2 in D1. pose proof (Z.div_mod x2 (2 ^ 8) ltac:(lia)) as D2. rewrite <- E3 in D2. rewrite (Z.mod_small x3) by (subst x3; apply dq; lia). clearbody x1 x2 x3. clear -D0 D1 D2. lia.
Qed.
Lemma sp_b a : 0 <= a < 2 ^ 26 -> a = a mod 2 ^ 6 + 2 ^ 6 * ((a / 2 ^ 6) mod 2 ^ 8) + 2 ^ 14 * ((a / 2 ^ 14) mod 2 ^ 8) + 2 ^ 22 * ((a / 2 ^ 22) mod 2 ^ 4).
Proof.
  intro H. assert (E2 : a / 2 ^ 14 = (a / 2 ^ 6) / 2 ^ 8) by (rewrite Z.div_div by lia; reflexivity). assert (E3 : a / 2 ^ 22 = (a / 2 ^ 14) / 2 ^ 8) by (rewrite Z.div_div by lia; reflexivity). set (x1 := a / 2 ^ 6) in *. set (x2 := a / 2 ^ 14) in *. set (x3 := a / 2 ^ 22) in *. pose proof (Z.div_mod a (2 ^ 6) ltac:(lia)) as D0. fold x1 in D0. pose proof (Z.div_mod x1 (2 ^ 8) ltac:(lia)) as D1. rewrite <- E2 in D1. pose proof (Z.div_mod x2 (2 ^ 8) ltac:(lia)) as D2. rewrite <- E3 in D2. rewrite (Z.mod_small x3) by (subst x3; apply dq; lia). clearbody x1 x2 x3. clear -D0 D1 D2. lia.
Qed.
Lemma sp_c a : 0 <= a < 2 ^ 26 -> a = a mod 2 ^ 4 + 2 ^ 4 * ((a / 2 ^ 4) mod 2 ^ 8) + 2 ^ 12 * ((a / 2 ^ 12) mod 2 ^ 8) + 2 ^ 20 * ((a / 2 ^ 20) mod 2 ^ 6).
Proof.
  intro H. assert (E2 : a / 2 ^ 12 = (a / 2 ^ 4) / 2 ^ 8) by (rewrite Z.div_div by lia; reflexivity). assert (E3 : a / 2 ^ 20 = (a / 2 ^ 12) / 2 ^ 8) by (rewrite Z.div_div by lia; reflexivity). set (x1 := a / 2 ^ 4) in *. set (x2 := a / 2 ^ 12) in *. set (x3 := a / 2 ^ 20) in *. pose proof (Z.div_mod a (2 ^ 4) ltac:(lia)) as D0. fold x1 in D0. pose proof (Z.div_mod x1 (2 ^ 8) ltac:(lia)) as D1. rewrite <- E2 in D1. pose proof (Z.div_mod x2 (2 ^ 8) ltac:(lia)) as D2. rewrite <- E3 in D2. rewrite (Z.mod_small x3) by (subst x3; apply dq; lia). clearbody x1 x2 x3. clear -D0 D1 D2. lia.
Qed.
Lemma sp_d a : 0 <= a < 2 ^ 26 -> a = a mod 2 ^ 2 + 2 ^ 2 * ((a / 2 ^ 2) mod 2 ^ 8) + 2 ^ 10 * ((a / 2 ^ 10) mod 2 ^ 8) + 2 ^ 18 * ((a / 2 ^ 18) mod 2 ^ 8).
Proof.
  intro H. assert (E2 : a / 2 ^ 10 = (a / 2 ^ 2) / 2 ^ 8) by (rewrite Z.div_div by lia; reflexivity). assert (E3 : a / 2 ^ 18 = (a / 2 ^ 10) / 2 ^ 8) by (rewrite Z.div_div by lia; reflexivity). set (x1 := a / 2 ^ 2) in *. set (x2 := a / 2 ^ 10) in *. set (x3 := a / 2 ^ 18) in *. pose proof (Z.div_mod a (2 ^ 2) ltac:(lia)) as D0. fold x1 in D0. pose proof (Z.div_mod x1 (2 ^ 8) ltac:(lia)) as D1. rewrite <- E2 in D1. pose proof (Z.div_mod x2 (2 ^ 8) ltac:(lia)) as D2. rewrite <- E3 in D2. rewrite (Z.mod_small x3) by (subst x3; apply dq; lia). clearbody x1 x2 x3. clear -D0 D1 D2. lia.
Qed.
Lemma sp_e a : 0 <= a < 2 ^ 22 -> a = a mod 2 ^ 6 + 2 ^ 6 * ((a / 2 ^ 6) mod 2 ^ 8) + 2 ^ 14 * ((a / 2 ^ 14) mod 2 ^ 8).
Proof.
  intro H. assert (E2 : a / 2 ^ 14 = (a / 2 ^ 6) / 2 ^ 8) by (rewrite Z.div_div by lia; reflexivity). set (x1 := a / 2 ^ 6) in *. set (x2 := a / 2 ^ 14) in *. pose proof (Z.div_mod a (2 ^ 6) ltac:(lia)) as D0. fold x1 in D0. pose proof (Z.div_mod x1 (2 ^ 8) ltac:(lia)) as D1. rewrite <- E2 in D1. rewrite (Z.mod_small x2) by (subst x2; apply dq; lia). clearbody x1 x2. clear -D0 D1. lia.
Qed.
Lemma sl8 a k : 0 <= k -> Z.land (Z.shiftr a k) 255 = (a / 2 ^ k) mod 2 ^ 8.
Proof. intro. rewrite Z.shiftr_div_pow2 by auto. change 255 with (Z.ones 8). apply Z.land_ones. lia. Qed.
Lemma l8 a : Z.land a 255 = a mod 2 ^ 8. Proof. change 255 with (Z.ones 8). apply Z.land_ones. lia. Qed.
Lemma mix2 a b s : 0 <= s -> Z.lor (Z.land (Z.shiftr a s) 3) (shl32 (Z.land b 63) 2) = (a / 2 ^ s) mod 2 ^ 2 + 2 ^ 2 * (b mod 2 ^ 6).
Proof.
  intro. rewrite Z.shiftr_div_pow2 by auto. change 3 with (Z.ones 2). change 63 with (Z.ones 6). rewrite !and_mod by lia.
  pose proof (Z.mod_pos_bound (a / 2 ^ s) (2 ^ 2) ltac:(lia)). pose proof (Z.mod_pos_bound b (2 ^ 6) ltac:(lia)). rewrite lor_shl by lia. reflexivity.
Qed.
Lemma mix4 a b s : 0 <= s -> Z.lor (Z.land (Z.shiftr a s) 15) (shl32 (Z.land b 15) 4) = (a / 2 ^ s) mod 2 ^ 4 + 2 ^ 4 * (b mod 2 ^ 4).
Proof.
  intro. rewrite Z.shiftr_div_pow2 by auto. change 15 with (Z.ones 4). change 15 with (Z.ones 4). rewrite !and_mod by lia.
  pose proof (Z.mod_pos_bound (a / 2 ^ s) (2 ^ 4) ltac:(lia)). pose proof (Z.mod_pos_bound b (2 ^ 4) ltac:(lia)). rewrite lor_shl by lia. reflexivity.
Qed.
Lemma mix6 a b s : 0 <= s -> Z.lor (Z.land (Z.shiftr a s) 63) (shl32 (Z.land b 3) 6) = (a / 2 ^ s) mod 2 ^ 6 + 2 ^ 6 * (b mod 2 ^ 2).
Proof.
  intro. rewrite Z.shiftr_div_pow2 by auto. change 63 with (Z.ones 6). change 3 with (Z.ones 2). rewrite !and_mod by lia.
  pose proof (Z.mod_pos_bound (a / 2 ^ s) (2 ^ 6) ltac:(lia)). pose proof (Z.mod_pos_bound b (2 ^ 2) ltac:(lia)). rewrite lor_shl by lia. reflexivity.
Qed.
Lemma bytes_length a : length (fe_bytes a) = 32%nat. Proof. destruct a. reflexivity. Qed.
Lemma bytes_ok a : canon a -> of_be (fe_bytes a) = fval a.
Proof.
  destruct a as [a0 a1 a2 a3 a4 a5 a6 a7 a8 a9]. unfold canon, in26. intros (A0 & A1 & A2 & A3 & A4 & A5 & A6 & A7 & A8 & A9 & _).
  unfold fe_bytes, of_be. cbn [map fold_left].
  repeat (rewrite sl8 by lia). rewrite !l8. repeat (rewrite mix2 by lia). repeat (rewrite mix4 by lia). repeat (rewrite mix6 by lia).
  pose proof (sp_a a0 A0) as S0.
  pose proof (Z.mod_pos_bound a0 (2 ^ 8) ltac:(lia)) as P00. set (d0_0 := a0 mod 2 ^ 8) in *. clearbody d0_0.
  pose proof (Z.mod_pos_bound (a0 / 2 ^ 8) (2 ^ 8) ltac:(lia)) as P01. set (d0_1 := (a0 / 2 ^ 8) mod 2 ^ 8) in *. clearbody d0_1.
  pose proof (Z.mod_pos_bound (a0 / 2 ^ 16) (2 ^ 8) ltac:(lia)) as P02. set (d0_2 := (a0 / 2 ^ 16) mod 2 ^ 8) in *. clearbody d0_2.
  pose proof (Z.mod_pos_bound (a0 / 2 ^ 24) (2 ^ 2) ltac:(lia)) as P03. set (d0_3 := (a0 / 2 ^ 24) mod 2 ^ 2) in *. clearbody d0_3.
  pose proof (sp_b a1 A1) as S1.
  pose proof (Z.mod_pos_bound a1 (2 ^ 6) ltac:(lia)) as P10. set (d1_0 := a1 mod 2 ^ 6) in *. clearbody d1_0.
  pose proof (Z.mod_pos_bound (a1 / 2 ^ 6) (2 ^ 8) ltac:(lia)) as P11. set (d1_1 := (a1 / 2 ^ 6) mod 2 ^ 8) in *. clearbody d1_1.
  pose proof (Z.mod_pos_bound (a1 / 2 ^ 14) (2 ^ 8) ltac:(lia)) as P12. set (d1_2 := (a1 / 2 ^ 14) mod 2 ^ 8) in *. clearbody d1_2.
  pose proof (Z.mod_pos_bound (a1 / 2 ^ 22) (2 ^ 4) ltac:(lia)) as P13. set (d1_3 := (a1 / 2 ^ 22) mod 2 ^ 4) in *. clearbody d1_3.
  pose proof (sp_c a2 A2) as S2.
  pose proof (Z.mod_pos_bound a2 (2 ^ 4) ltac:(lia)) as P20. set (d2_0 := a2 mod 2 ^ 4) in *. clearbody d2_0.
  pose proof (Z.mod_pos_bound (a2 / 2 ^ 4) (2 ^ 8) ltac:(lia)) as P21. set (d2_1 := (a2 / 2 ^ 4) mod 2 ^ 8) in *. clearbody d2_1.
  pose proof (Z.mod_pos_bound (a2 / 2 ^ 12) (2 ^ 8) ltac:(lia)) as P22. set (d2_2 := (a2 / 2 ^ 12) mod 2 ^ 8) in *. clearbody d2_2.
  pose proof (Z.mod_pos_bound (a2 / 2 ^ 20) (2 ^ 6) ltac:(lia)) as P23. set (d2_3 := (a2 / 2 ^ 20) mod 2 ^ 6) in *. clearbody d2_3.
  pose proof (sp_d a3 A3) as S3.
  pose proof (Z.mod_pos_bound a3 (2 ^ 2) ltac:(lia)) as P30. set (d3_0 := a3 mod 2 ^ 2) in *. clearbody d3_0.
  pose proof (Z.mod_pos_bound (a3 / 2 ^ 2) (2 ^ 8) ltac:(lia)) as P31. set (d3_1 := (a3 / 2 ^ 2) mod 2 ^ 8) in *. clearbody d3_1.
  pose proof (Z.mod_pos_bound (a3 / 2 ^ 10) (2 ^ 8) ltac:(lia)) as P32. set (d3_2 := (a3 / 2 ^ 10) mod 2 ^ 8) in *. clearbody d3_2.
  pose proof (Z.mod_pos_bound (a3 / 2 ^ 18) (2 ^ 8) ltac:(lia)) as P33. set (d3_3 := (a3 / 2 ^ 18) mod 2 ^ 8) in *. clearbody d3_3.
  pose proof (sp_a a4 A4) as S4.
  pose proof (Z.mod_pos_bound a4 (2 ^ 8) ltac:(lia)) as P40. set (d4_0 := a4 mod 2 ^ 8) in *. clearbody d4_0.
  pose proof (Z.mod_pos_bound (a4 / 2 ^ 8) (2 ^ 8) ltac:(lia)) as P41. set (d4_1 := (a4 / 2 ^ 8) mod 2 ^ 8) in *. clearbody d4_1.
  pose proof (Z.mod_pos_bound (a4 / 2 ^ 16) (2 ^ 8) ltac:(lia)) as P42. set (d4_2 := (a4 / 2 ^ 16) mod 2 ^ 8) in *. clearbody d4_2.
  pose proof (Z.mod_pos_bound (a4 / 2 ^ 24) (2 ^ 2) ltac:(lia)) as P43. set (d4_3 := (a4 / 2 ^ 24) mod 2 ^ 2) in *. clearbody d4_3.
  pose proof (sp_b a5 A5) as S5.
  pose proof (Z.mod_pos_bound a5 (2 ^ 6) ltac:(lia)) as P50. set (d5_0 := a5 mod 2 ^ 6) in *. clearbody d5_0.
  pose proof (Z.mod_pos_bound (a5 / 2 ^ 6) (2 ^ 8) ltac:(lia)) as P51. set (d5_1 := (a5 / 2 ^ 6) mod 2 ^ 8) in *. clearbody d5_1.
  pose proof (Z.mod_pos_bound (a5 / 2 ^ 14) (2 ^ 8) ltac:(lia)) as P52. set (d5_2 := (a5 / 2 ^ 14) mod 2 ^ 8) in *. clearbody d5_2.
  pose proof (Z.mod_pos_bound (a5 / 2 ^ 22) (2 ^ 4) ltac:(lia)) as P53. set (d5_3 := (a5 / 2 ^ 22) mod 2 ^ 4) in *. clearbody d5_3.
  pose proof (sp_c a6 A6) as S6.
  pose proof (Z.mod_pos_bound a6 (2 ^ 4) ltac:(lia)) as P60. set (d6_0 := a6 mod 2 ^ 4) in *. clearbody d6_0.
  pose proof (Z.mod_pos_bound (a6 / 2 ^ 4) (2 ^ 8) ltac:(lia)) as P61. set (d6_1 := (a6 / 2 ^ 4) mod 2 ^ 8) in *. clearbody d6_1.
  pose proof (Z.mod_pos_bound (a6 / 2 ^ 12) (2 ^ 8) ltac:(lia)) as P62. set (d6_2 := (a6 / 2 ^ 12) mod 2 ^ 8) in *. clearbody d6_2.
  pose proof (Z.mod_pos_bound (a6 / 2 ^ 20) (2 ^ 6) ltac:(lia)) as P63. set (d6_3 := (a6 / 2 ^ 20) mod 2 ^ 6) in *. clearbody d6_3.
  pose proof (sp_d a7 A7) as S7.
  pose proof (Z.mod_pos_bound a7 (2 ^ 2) ltac:(lia)) as P70. set (d7_0 := a7 mod 2 ^ 2) in *. clearbody d7_0.
  pose proof (Z.mod_pos_bound (a7 / 2 ^ 2) (2 ^ 8) ltac:(lia)) as P71. set (d7_1 := (a7 / 2 ^ 2) mod 2 ^ 8) in *. clearbody d7_1.
  pose proof (Z.mod_pos_bound (a7 / 2 ^ 10) (2 ^ 8) ltac:(lia)) as P72. set (d7_2 := (a7 / 2 ^ 10) mod 2 ^ 8) in *. clearbody d7_2.
  pose proof (Z.mod_pos_bound (a7 / 2 ^ 18) (2 ^ 8) ltac:(lia)) as P73. set (d7_3 := (a7 / 2 ^ 18) mod 2 ^ 8) in *. clearbody d7_3.
  pose proof (sp_a a8 A8) as S8.
  pose proof (Z.mod_pos_bound a8 (2 ^ 8) ltac:(lia)) as P80. set (d8_0 := a8 mod 2 ^ 8) in *. clearbody d8_0.
  pose proof (Z.mod_pos_bound (a8 / 2 ^ 8) (2 ^ 8) ltac:(lia)) as P81. set (d8_1 := (a8 / 2 ^ 8) mod 2 ^ 8) in *. clearbody d8_1.
  pose proof (Z.mod_pos_bound (a8 / 2 ^ 16) (2 ^ 8) ltac:(lia)) as P82. set (d8_2 := (a8 / 2 ^ 16) mod 2 ^ 8) in *. clearbody d8_2.
  pose proof (Z.mod_pos_bound (a8 / 2 ^ 24) (2 ^ 2) ltac:(lia)) as P83. set (d8_3 := (a8 / 2 ^ 24) mod 2 ^ 2) in *. clearbody d8_3.
  pose proof (sp_e a9 A9) as S9.
  pose proof (Z.mod_pos_bound a9 (2 ^ 6) ltac:(lia)) as P90. set (d9_0 := a9 mod 2 ^ 6) in *. clearbody d9_0.
  pose proof (Z.mod_pos_bound (a9 / 2 ^ 6) (2 ^ 8) ltac:(lia)) as P91. set (d9_1 := (a9 / 2 ^ 6) mod 2 ^ 8) in *. clearbody d9_1.
  pose proof (Z.mod_pos_bound (a9 / 2 ^ 14) (2 ^ 8) ltac:(lia)) as P92. set (d9_2 := (a9 / 2 ^ 14) mod 2 ^ 8) in *. clearbody d9_2.
  rewrite !bz_zb_small by lia. unfold fval. rewrite S0, S1, S2, S3, S4, S5, S6, S7, S8, S9. ring.
Qed.
Lemma set_slice_ok b : (length b <= 32)%nat -> mag 1 (fe_set_slice b) /\ fval (fe_set_slice b) = of_be b.
Proof.
  intro L. unfold fe_set_slice. destruct (Nat.ltb_spec 32 (length b)); [lia|]. cbv zeta.
  destruct (set_bytes_ok (repeat (zb 0) (32 - length b) ++ b)) as [M V]; [rewrite app_length, repeat_length; lia|].
  split; [exact M|]. rewrite V. apply of_be_zeros.
Qed.
Lemma bytes_set b : length b = 32%nat -> of_be b < p256k1 -> fe_bytes (fe_norm (fe_set_bytes b)) = b.
Proof.
  intros L B. destruct (set_bytes_ok b L) as [M V]. destruct (norm_ok (fe_set_bytes b)) as [C E]; [apply (mag_mono 1); [lia|exact M]|].
  apply of_be_inj_len; [rewrite bytes_length; auto|]. rewrite bytes_ok by exact C. rewrite E, V. apply Z.mod_small. pose proof (of_be_range b). lia.
Qed.

(** ** Inverse, Sqrt *)
(** x is the k-th power of a modulo p *)
Definition pw (a k : Z) (x : fe) : Prop := mag 1 x /\ 0 <= k /\ cong p256k1 (fval x) (a ^ k).
Lemma pw_mul a i j x y : pw a i x -> pw a j y -> pw a (i + j) (fe_mul x y).
Proof.
  intros (M & I & V) (N & J & U). destruct (mul_ok x y) as [A B]; [apply (mag_mono 1); [lia|auto]..|]. split; [exact A|]. split; [lia|].
  rewrite B, V, U. rewrite Z.pow_add_r by lia. reflexivity.
Qed.
Lemma pw_sq a i x : pw a i x -> pw a (2 * i) (fe_sq x).
Proof.
  intros (M & I & V). destruct (sq_ok x) as [A B]; [apply (mag_mono 1); [lia|auto]..|]. split; [exact A|]. split; [lia|].
  rewrite B, V. replace (2 * i) with (i + i) by lia. rewrite Z.pow_add_r by lia. reflexivity.
Qed.
Lemma pw_mulf f i x : mag 8 f -> pw (fval f) i x -> pw (fval f) (i + 1) (fe_mul x f).
Proof.
  intros F (M & I & V). destruct (mul_ok x f) as [A B]; [apply (mag_mono 1); [lia|auto]|auto|]. split; [exact A|]. split; [lia|].
  rewrite B, V. rewrite Z.pow_add_r, Z.pow_1_r by lia. reflexivity.
Qed.
Lemma pw_sqn a k : forall i x, pw a i x -> pw a (2 ^ Z.of_nat k * i) (fe_sqn k x).
Proof.
  induction k as [|k IH]; intros i x H; cbn [fe_sqn]; [change (2 ^ Z.of_nat 0) with 1; now rewrite Z.mul_1_l|].
  rewrite Nat2Z.inj_succ, Z.pow_succ_r by lia. replace (2 * 2 ^ Z.of_nat k * i) with (2 ^ Z.of_nat k * (2 * i)) by ring. apply IH, pw_sq, H.
Qed.
Fixpoint run_exp (k : nat) (r i : Z) : Z := match k with O => i | S k => run_exp k r (2 ^ 10 * i + r) end.
Lemma pw_runs a r y k : pw a r y -> forall i x, pw a i x -> pw a (run_exp k r i) (fe_runs k y x).
Proof.
  intro Y. induction k as [|k IH]; intros i x H; cbn [fe_runs run_exp]; [exact H|]. apply IH. apply pw_mul; [|exact Y]. apply (pw_sqn a 10), H.
Qed.
Lemma pw_eq a i j x : i = j -> pw a i x -> pw a j x. Proof. intros ->. auto. Qed.
Lemma inv_pw f : mag 8 f -> pw (fval f) (p256k1 - 2) (fe_inv f).
Proof.
  intro F. unfold fe_inv.
  assert (A2 : pw (fval f) 2 (fe_sq f)).
  { destruct (sq_ok f F) as [A B]. split; [exact A|]. split; [lia|]. rewrite B. rewrite Z.pow_2_r. reflexivity. }
  set (a2 := fe_sq f) in *. clearbody a2. cbv zeta.
  assert (A3 := pw_mulf f _ _ F A2). set (a3 := fe_mul a2 f) in *. clearbody a3.
  assert (A4 := pw_sq _ _ _ A2). set (a4 := fe_sq a2) in *. clearbody a4.
  assert (A10 := pw_mul _ _ _ _ _ (pw_sq _ _ _ A4) A2). set (a10 := fe_mul (fe_sq a4) a2) in *. clearbody a10.
  assert (A11 := pw_mulf f _ _ F A10). set (a11 := fe_mul a10 f) in *. clearbody a11.
  assert (A21 := pw_mul _ _ _ _ _ A10 A11). set (a21 := fe_mul a10 a11) in *. clearbody a21.
  assert (A42 := pw_sq _ _ _ A21). set (a42 := fe_sq a21) in *. clearbody a42.
  assert (A45 := pw_mul _ _ _ _ _ A42 A3). set (a45 := fe_mul a42 a3) in *. clearbody a45.
  assert (A63 := pw_mul _ _ _ _ _ A42 A21). set (a63 := fe_mul a42 a21) in *. clearbody a63.
  assert (A1019 := pw_mul _ _ _ _ _ (pw_sqn _ 4 _ _ A63) A11). set (a1019 := fe_mul (fe_sqn 4 a63) a11) in *. clearbody a1019.
  assert (A1023 := pw_mul _ _ _ _ _ A1019 A4). set (a1023 := fe_mul a1019 a4) in *. clearbody a1023.
  assert (R := pw_runs _ _ _ 21 A1023 _ _ A63). set (r := fe_runs 21 a1023 a63) in *. clearbody r.
  assert (R1 := pw_mul _ _ _ _ _ (pw_sqn _ 10 _ _ R) A1019). set (r1 := fe_mul (fe_sqn 10 r) a1019) in *. clearbody r1.
  assert (R2 := pw_mul _ _ _ _ _ (pw_sqn _ 10 _ _ R1) A1023). set (r2 := fe_mul (fe_sqn 10 r1) a1023) in *. clearbody r2.
  assert (R3 := pw_mul _ _ _ _ _ (pw_sqn _ 10 _ _ R2) A1023). set (r3 := fe_mul (fe_sqn 10 r2) a1023) in *. clearbody r3.
  assert (R4 := pw_mul _ _ _ _ _ (pw_sqn _ 10 _ _ R3) A45).
  revert R4. apply pw_eq. vm_compute. reflexivity.
Qed.

Fixpoint sqe (k : nat) (i : Z) : Z := match k with O => i | S k => sqe k (2 * i + 1) end.
Definition sqrt_exp (i b : Z) : Z :=
  if b =? 255 then sqe 8 i else if b =? 63 then sqe 5 (i + 1) else if b =? 191 then sqe 6 (2 * (2 * i + 1)) else 2 * (2 * (sqe 2 (2 ^ 4 * i))).
Lemma pw_sqrt_step f i x b : mag 8 f -> pw (fval f) i x -> pw (fval f) (sqrt_exp i b) (fe_sqrt_step f x b).
Proof.
  intros F H. unfold fe_sqrt_step, sqrt_exp, sqe.
  assert (SM : forall i x, pw (fval f) i x -> pw (fval f) (2 * i + 1) (fe_mul (fe_sq x) f)) by (intros; apply pw_mulf; [exact F|apply pw_sq; auto]).
  cbv zeta. destruct (b =? 255); [repeat apply SM; exact H|]. destruct (b =? 63); [repeat apply SM; apply pw_mulf; auto|].
  destruct (b =? 191); [repeat apply SM; apply pw_sq; apply SM; exact H|].
  apply pw_sq, pw_sq, SM, SM, (pw_sqn _ 4), H.
Qed.
Lemma sqrt_pw f : mag 8 f -> pw (fval f) ((p256k1 + 1) / 4) (fe_sqrt f).
Proof.
  intro F. unfold fe_sqrt.
  assert (K : forall l i x, pw (fval f) i x -> pw (fval f) (fold_left sqrt_exp l i) (fold_left (fe_sqrt_step f) l x)).
  { induction l as [|b l IH]; intros i x H; [exact H|]. cbn [fold_left]. apply IH, pw_sqrt_step; auto. }
  assert (I : pw (fval f) 0 (fe_int 1)).
  { destruct (int_ok 1) as [M V]; [lia|]. split; [exact M|]. split; [lia|]. rewrite V. reflexivity. }
  assert (R := K q_bytes 0 _ I). revert R. apply pw_eq. vm_compute. reflexivity.
Qed.
