(** PropPubKey.v -- C59: serialized secp256k1 public keys (btcec/v1/pubkey.go), down to the words of the field values. *)
From Verif Require Import Base BigInt NumTh FieldP AbGroup AbZ WGroup WCurve SecpField SecpFieldThm SecpNorm SecpOps SecpPrimes PropSecpField Secp256k1 SecpCurve SecpJac PropSecp SecpMul Curve Ckd Bip32 PropBip32 Ecdsa.
From Coq Require Import Znumtheory.
Local Notation P := p256k1.

Lemma p_pos : 0 < P. Proof. reflexivity. Qed.
Lemma on_ow x y : on_curve x y <-> on_weierstrass P 7 (x, y).
Proof.
  unfold on_curve, on_weierstrass. cbn [px py fst snd]. split; intros (A & B & C); (split; [exact A|split; [exact B|]]); apply cong_eq in C || apply cong_eq; auto using p_pos.
Qed.
Lemma p_mod4 : P mod 4 = 3. Proof. reflexivity. Qed.

(** the word-level computation is the one on numbers *)
Lemma sel_ok y (b : bool) : canon y -> canon (if Bool.eqb b (fe_is_odd y) then y else fe_norm (fe_neg y 1)) /\
  fval (if Bool.eqb b (fe_is_odd y) then y else fe_norm (fe_neg y 1)) = if Bool.eqb b (Z.odd (fval y)) then fval y else (- fval y) mod P.
Proof.
  intro C. rewrite is_odd_ok. destruct (Bool.eqb b (Z.odd (fval y))); [auto|]. destruct (canon_mag y C) as [M R].
  destruct (neg_ok y 1 ltac:(lia) M) as [M2 V2]. destruct (norm_ok (fe_neg y 1)) as [C2 E2]; [apply (mag_mono 2); [lia|exact M2]|]. split; [exact C2|].
  rewrite E2, V2. replace ((1 + 1) * P - fval y) with (- fval y + 2 * P) by ring. apply Z.mod_add. discriminate.
Qed.
Lemma decompress_eq X b : 0 <= X < 2 ^ 256 -> decompress_fe X b = decompress P 7 X b.
Proof.
  intro R. unfold decompress_fe, decompress.
  destruct (set_slice_ok (to_be X)) as [M1 V1]. { apply to_be_length. rewrite Z.abs_eq by lia. change (256 ^ Z.of_nat 32) with (2 ^ 256). lia. }
  rewrite of_be_to_be_nonneg in V1 by lia. set (x := fe_set_slice (to_be X)) in *. clearbody x.
  destruct (sq_ok x) as [M2 V2]; [apply (mag_mono 1); [lia|exact M1]|]. destruct (mul_ok (fe_sq x) x) as [M3 V3]; [apply (mag_mono 1); [lia|assumption]..|].
  destruct (int_ok 7 ltac:(lia)) as [M4 V4]. destruct (add_ok _ _ 1 1 ltac:(lia) ltac:(lia) ltac:(lia) M3 M4) as [M5 V5].
  destruct (norm_ok (fe_add (fe_mul (fe_sq x) x) (fe_int 7))) as [C6 E6]; [apply (mag_mono 2); [lia|exact M5]|].
  set (x3 := fe_norm (fe_add (fe_mul (fe_sq x) x) (fe_int 7))) in *. clearbody x3.
  assert (F3 : fval x3 = (X mod P * (X mod P) * (X mod P) + 7) mod P).
  { rewrite E6, V5, V4. apply cong_eq; [exact p_pos|]. rewrite V3, V2, V1. rewrite !(cong_mod P X) by exact p_pos. reflexivity. }
  clear E6 V5 V4 V3 V2 V1 M5 M4 M3 M2 M1. rewrite <- F3. destruct (canon_mag x3 C6) as [M6 R6].
  destruct (sqrt_pw x3) as (M7 & _ & V7); [apply (mag_mono 1); [lia|exact M6]|].
  destruct (norm_ok (fe_sqrt x3)) as [C8 E8]; [apply (mag_mono 1); [lia|exact M7]|]. set (y := fe_norm (fe_sqrt x3)) in *. clearbody y.
  assert (F8 : fval y = powm (fval x3) ((P + 1) / 4) P).
  { rewrite E8. rewrite powm_eq by (reflexivity || discriminate). apply cong_eq; [exact p_pos|]. exact V7. }
  rewrite <- F8. destruct (sel_ok y b C8) as [C9 F9]. rewrite <- F9. set (y' := if Bool.eqb b (fe_is_odd y) then y else fe_norm (fe_neg y 1)) in *. clearbody y'. clear F9 F8 E8 V7 M7 C8 y.
  destruct (canon_mag y' C9) as [M9 _]. destruct (sq_ok y') as [MA VA]; [apply (mag_mono 1); [lia|exact M9]|]. destruct (norm_ok (fe_sq y')) as [CB EB]; [apply (mag_mono 1); [lia|exact MA]|].
  rewrite eqb_ok by assumption. rewrite EB. assert (EM : fval (fe_sq y') mod P = (fval y' * fval y') mod P) by (apply cong_eq; [exact p_pos|exact VA]). rewrite EM.
  rewrite is_odd_ok. rewrite bytes_ok by exact C9. reflexivity.
Qed.
(** decompression finds exactly the point with this x (modulo P) and this parity *)
Lemma dec_iff X b y : 0 <= X < 2 ^ 256 -> decompress_fe X b = Some y <-> on_curve (X mod P) y /\ Z.odd y = b.
Proof.
  intro R. rewrite decompress_eq by exact R. split.
  - intro H. apply (decompress_inv P 7 prime_p256k1) in H. rewrite on_ow. exact H.
  - intros [O <-]. apply on_ow in O. pose proof (decompress_ok P 7 prime_p256k1 p_mod4 _ _ O) as D. rewrite <- D. unfold decompress. rewrite Zmod_mod. reflexivity.
Qed.
Theorem C59_decompress X b y : 0 <= X < 2 ^ 256 -> decompress_fe X b = Some y <-> on_curve (X mod P) y /\ Z.odd y = b.
Proof. exact (dec_iff X b y). Qed.

(** first bytes *)
Lemma land_all : forallb (fun b => (Z.land b 254 =? 2 * (b / 2)) && Bool.eqb (Z.land b 1 =? 1) (Z.odd b)) bytes_all = true.
Proof. vm_compute. reflexivity. Qed.
Lemma land_ok f : Z.land (bz f) 254 = 2 * (bz f / 2) /\ (Z.land (bz f) 1 =? 1) = Z.odd (bz f).
Proof.
  pose proof (proj1 (forallb_forall _ _) land_all (bz f) (in_bytes _ (bz_range f))) as H. apply andb_prop in H as [H1 H2]. apply Z.eqb_eq in H1. apply Bool.eqb_prop in H2. auto.
Qed.
Lemma fmt f k : 0 <= k -> (Z.land (bz f) 254 =? 2 * k) = ((bz f =? 2 * k) || (bz f =? 2 * k + 1)).
Proof.
  intro K. rewrite (proj1 (land_ok f)). pose proof (Z.div_mod (bz f) 2 ltac:(lia)). pose proof (Z.mod_pos_bound (bz f) 2 ltac:(lia)). generalize dependent (bz f / 2). generalize dependent (bz f mod 2). intros. lia.
Qed.
Lemma fmt2 f : (Z.land (bz f) 254 =? 2) = ((bz f =? 2) || (bz f =? 3)). Proof. exact (fmt f 1 ltac:(lia)). Qed.
Lemma fmt4 f : (Z.land (bz f) 254 =? 4) = ((bz f =? 4) || (bz f =? 5)). Proof. exact (fmt f 2 ltac:(lia)). Qed.
Lemma fmt6 f : (Z.land (bz f) 254 =? 6) = ((bz f =? 6) || (bz f =? 7)). Proof. exact (fmt f 3 ltac:(lia)). Qed.
Lemma pad32_fixed x : 0 <= x < 2 ^ 256 -> pad32 x = be_fixed 32 x. Proof. exact (be_fixed_pad32 x). Qed.
Lemma p256 : 256 ^ Z.of_nat 32 = 2 ^ 256. Proof. reflexivity. Qed.
Lemma r32 (l : bytes) : length l = 32%nat -> 0 <= of_be l < 2 ^ 256. Proof. intro L. pose proof (of_be_range l) as R. rewrite L, p256 in R. exact R. Qed.
Lemma p_lt : P < 2 ^ 256. Proof. reflexivity. Qed.
Lemma on_lt x y : on_curve x y -> 0 <= x < 2 ^ 256 /\ 0 <= y < 2 ^ 256. Proof. intros (A & B & _). pose proof p_lt. lia. Qed.

(** ** what ParsePubKey accepts *)
Theorem C59_parse b x y : parse_pub b = Some (x, y) <->
  (exists f r, b = f :: r /\ length r = 64%nat /\ x = of_be (firstn 32 r) /\ y = of_be (skipn 32 r) /\ on_curve x y /\
     (bz f = 4 \/ bz f = 5 \/ bz f = if Z.odd y then 7 else 6)) \/
  (exists f r, b = f :: r /\ length r = 32%nat /\ x = of_be r /\ on_curve (x mod P) y /\ bz f = if Z.odd y then 3 else 2).
Proof.
  split.
  - destruct b as [|f r]; [discriminate|]. unfold parse_pub. destruct (Nat.eqb_spec (length (f :: r)) 65) as [L|_].
    + cbn [length] in L. assert (L' : length r = 64%nat) by lia. rewrite !fmt4, !fmt6, (proj2 (land_ok f)).
      assert (RX : 0 <= of_be (firstn 32 r) < 2 ^ 256) by (apply r32; rewrite firstn_length; lia). assert (RY : 0 <= of_be (skipn 32 r) < 2 ^ 256) by (apply r32; rewrite skipn_length; lia).
      set (x0 := of_be (firstn 32 r)) in *. set (y0 := of_be (skipn 32 r)) in *.
      destruct (Z.leb_spec P x0) as [LX|LX]. { destruct (_ && _); [discriminate|]. destruct (_ && _); discriminate. }
      destruct (Z.leb_spec P y0) as [LY|LY]. { destruct (_ && _); [discriminate|]. destruct (_ && _); discriminate. }
      destruct (is_on_curve x0 y0) eqn:O; cbn [negb]; [|destruct (_ && _); [discriminate|]; destruct (_ && _); discriminate].
      apply is_on_ok in O; [|exact RX|exact RY]. intro H.
      assert (K : (bz f = 4 \/ bz f = 5 \/ bz f = if Z.odd y0 then 7 else 6) /\ x0 = x /\ y0 = y).
      { destruct (Z.eqb_spec (bz f) 4); cbn [negb orb andb] in H.
        { split; [auto|]. replace (bz f =? 6) with false in H by lia. replace (bz f =? 7) with false in H by lia. cbn [negb orb andb] in H. split; congruence. }
        destruct (Z.eqb_spec (bz f) 5); cbn [negb orb andb] in H.
        { split; [auto|]. replace (bz f =? 6) with false in H by lia. replace (bz f =? 7) with false in H by lia. cbn [negb orb andb] in H. split; congruence. }
        destruct (Z.eqb_spec (bz f) 6) as [E6|]; cbn [negb orb andb] in H.
        { rewrite E6 in H. change (Z.odd 6) with false in H. destruct (Z.odd y0); cbn [Bool.eqb negb] in H; [discriminate H|]. split; [auto|split; congruence]. }
        destruct (Z.eqb_spec (bz f) 7) as [E7|]; cbn [negb orb andb] in H; [|discriminate H].
        rewrite E7 in H. change (Z.odd 7) with true in H. destruct (Z.odd y0); cbn [Bool.eqb negb] in H; [|discriminate H]. split; [auto|split; congruence]. }
      destruct K as (K & <- & <-). left. exists f, r. repeat (split; [reflexivity || assumption|]). split; [|exact K]. split; [lia|]. split; [lia|exact O].
    + destruct (Nat.eqb_spec (length (f :: r)) 33) as [L|_]; [|discriminate]. cbn [length] in L. assert (L' : length r = 32%nat) by lia.
      rewrite fmt2, (proj2 (land_ok f)). destruct ((bz f =? 2) || (bz f =? 3)) eqn:EF; cbn [negb]; [|discriminate].
      destruct (decompress_fe (of_be r) (Z.odd (bz f))) as [y0|] eqn:D; [|discriminate]. intro H. assert (x = of_be r /\ y = y0) as [-> ->] by (split; congruence). clear H.
      apply dec_iff in D as [O D]; [|exact (r32 r L')]. right. exists f, r. repeat (split; [reflexivity || assumption|]). rewrite D.
      apply orb_true_iff in EF. destruct EF as [EF|EF]; apply Z.eqb_eq in EF; rewrite EF; reflexivity.
  - intros [(f & r & -> & L & EX & EY & O & F)|(f & r & -> & L & EX & O & F)]; unfold parse_pub.
    + replace (length (f :: r) =? 65)%nat with true by (symmetry; apply Nat.eqb_eq; cbn [length]; lia). rewrite <- EX, <- EY. destruct (on_lt _ _ O) as [RX RY]. pose proof O as (LX & LY & OO).
      apply is_on_ok in OO; [|exact RX|exact RY]. rewrite OO. replace (P <=? x) with false by (symmetry; apply Z.leb_gt; lia). replace (P <=? y) with false by (symmetry; apply Z.leb_gt; lia). cbn [negb].
      destruct F as [-> | [-> | ->]]; [reflexivity|reflexivity|]. destruct (Z.odd y); reflexivity.
    + replace (length (f :: r) =? 65)%nat with false by (symmetry; apply Nat.eqb_neq; cbn [length]; lia). replace (length (f :: r) =? 33)%nat with true by (symmetry; apply Nat.eqb_eq; cbn [length]; lia).
      rewrite <- EX. assert (R : 0 <= x < 2 ^ 256) by (rewrite EX; exact (r32 r L)). assert (D : decompress_fe x (Z.odd y) = Some y) by (apply dec_iff; auto). rewrite F.
      destruct (Z.odd y); [change (Z.land 3 254) with 2; change (Z.land 3 1) with 1|change (Z.land 2 254) with 2; change (Z.land 2 1) with 0]; change (2 =? 2) with true; cbn [negb]; [change (1 =? 1) with true|change (0 =? 1) with false]; rewrite D; reflexivity.
Qed.
(** so every accepted key is a point of the curve (for a compressed key after reducing x) *)
Theorem C59_accepted_on_curve b x y : parse_pub b = Some (x, y) -> on_curve (x mod P) y /\ 0 <= x < 2 ^ 256 /\ (length b = 65%nat -> x < P).
Proof.
  intro H. apply C59_parse in H as [(f & r & -> & L & -> & -> & O & F)|(f & r & -> & L & -> & O & F)].
  - split; [|split; [exact (proj1 (on_lt _ _ O))|intros _; apply O]]. rewrite Z.mod_small by apply O. exact O.
  - split; [exact O|]. split; [exact (r32 r L)|]. cbn [length]. lia.
Qed.
(** ** every point survives all three forms *)
Theorem C59_round_trip x y : on_curve x y ->
  parse_pub (ser_unc (x, y)) = Some (x, y) /\ parse_pub (ser_cmp (x, y)) = Some (x, y) /\ parse_pub (ser_hyb (x, y)) = Some (x, y) /\
  length (ser_unc (x, y)) = 65%nat /\ length (ser_cmp (x, y)) = 33%nat /\ length (ser_hyb (x, y)) = 65%nat.
Proof.
  intro O. destruct (on_lt _ _ O) as [RX RY]. unfold ser_unc, ser_cmp, ser_hyb. cbn [fst snd]. rewrite !pad32_fixed by assumption.
  assert (LX : length (be_fixed 32 x) = 32%nat) by apply be_fixed_length. assert (LY : length (be_fixed 32 y) = 32%nat) by apply be_fixed_length.
  assert (FF : firstn 32 (be_fixed 32 x ++ be_fixed 32 y) = be_fixed 32 x /\ skipn 32 (be_fixed 32 x ++ be_fixed 32 y) = be_fixed 32 y).
  { rewrite firstn_app, skipn_app, LX, Nat.sub_diag, firstn_O, skipn_O, app_nil_r, firstn_all2, skipn_all2 by lia. auto. } destruct FF as [F1 F2].
  assert (VX : of_be (be_fixed 32 x) = x) by (apply of_be_be_fixed; rewrite p256; exact RX). assert (VY : of_be (be_fixed 32 y) = y) by (apply of_be_be_fixed; rewrite p256; exact RY).
  split; [|split; [|split]].
  - apply C59_parse. left. eexists _, _. split; [reflexivity|]. split; [rewrite app_length; lia|]. rewrite F1, F2. split; [now symmetry|]. split; [now symmetry|]. split; [exact O|left; reflexivity].
  - apply C59_parse. right. eexists _, _. split; [reflexivity|]. split; [exact LX|]. split; [now symmetry|]. rewrite Z.mod_small by apply O. split; [exact O|]. destruct (Z.odd y); reflexivity.
  - apply C59_parse. left. eexists _, _. split; [reflexivity|]. split; [rewrite app_length; lia|]. rewrite F1, F2. split; [now symmetry|]. split; [now symmetry|]. split; [exact O|right; right; destruct (Z.odd y); reflexivity].
  - cbn [length]. rewrite !app_length, LX, LY. auto.
Qed.
Theorem C59_is_compressed b : is_compressed b = true <-> exists f r, b = f :: r /\ length r = 32%nat /\ (bz f = 2 \/ bz f = 3).
Proof.
  unfold is_compressed. destruct b as [|f r]; [split; [discriminate|intros (f & r & H & _); discriminate H]|]. rewrite fmt2. rewrite andb_true_iff, orb_true_iff, Nat.eqb_eq, !Z.eqb_eq. cbn [length]. split.
  - intros [L F]. exists f, r. split; [reflexivity|]. split; [lia|exact F].
  - intros (f' & r' & E & L & F). injection E as <- <-. split; [lia|exact F].
Qed.
(** ** the parser is not canonical: prefix 5 is read like 4, and a compressed x need not be reduced *)
Theorem C59_prefix_five_refuted x y : on_curve x y -> parse_pub (zb 5 :: pad32 x ++ pad32 y) = Some (x, y) /\ zb 5 :: pad32 x ++ pad32 y <> ser_unc (x, y) /\ zb 5 :: pad32 x ++ pad32 y <> ser_hyb (x, y).
Proof.
  intro O. destruct (C59_round_trip x y O) as (H & _). apply C59_parse in H as [(f & r & E & L & EX & EY & _ & _)|(f & r & E & L & _)].
  - unfold ser_unc in E. cbn [fst snd] in E. assert (r = pad32 x ++ pad32 y) by congruence. subst r. split; [|split].
    + apply C59_parse. left. eexists _, _. split; [reflexivity|]. split; [exact L|]. split; [exact EX|]. split; [exact EY|]. split; [exact O|]. right. left. reflexivity.
    + unfold ser_unc. intro K. assert (K' : zb 5 = zb 4) by congruence. discriminate K'.
    + unfold ser_hyb. cbn [fst snd]. intro K. assert (K' : zb 5 = zb (if Z.odd y then 7 else 6)) by congruence. destruct (Z.odd y); discriminate K'.
  - exfalso. destruct (C59_round_trip x y O) as (_ & _ & _ & L1 & _). rewrite E in L1. cbn [length] in L1. lia.
Qed.
Theorem C59_unreduced_refuted x y : on_curve x y -> x + P < 2 ^ 256 -> parse_pub (ser_cmp (x + P, y)) = Some (x + P, y) /\ parse_pub (ser_cmp (x, y)) = Some (x, y).
Proof.
  intros O R. split; [|apply C59_round_trip, O]. pose proof O as (LX & _). apply C59_parse. right. unfold ser_cmp. cbn [fst snd]. rewrite pad32_fixed by (pose proof p_pos; lia).
  eexists _, _. split; [reflexivity|]. split; [apply be_fixed_length|]. split; [symmetry; apply of_be_be_fixed; rewrite p256; pose proof p_pos; lia|].
  split; [|destruct (Z.odd y); reflexivity]. replace (x + P) with (x + 1 * P) by ring. rewrite Z.mod_add by discriminate. rewrite Z.mod_small by exact LX. exact O.
Qed.
(** such points exist: x = 1 *)
Theorem C59_example : on_curve 1 29896722852569046015560700294576055776214335159245303116488692907525646231534 /\ 1 + P < 2 ^ 256 /\ on_curve gx256 gy256.
Proof. split; [split; [split; [discriminate|reflexivity]|split; [split; [discriminate|reflexivity]|vm_compute; reflexivity]]|]. split; [reflexivity|apply C56_base_point]. Qed.
