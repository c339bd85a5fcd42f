(** PropBip32.v -- C45 (text form of extended keys) and C51 (derivation of secp256k1 extended keys). *)
From Verif Require Import Base BigInt Text NumTh Euler Curve Ckd PropCkd PropPrimes Bip32.
From Coq Require Import Znumtheory.

Lemma firstn_exact {A} n (a b : list A) : length a = n -> firstn n (a ++ b) = a.
Proof. intros <-. rewrite firstn_app, Nat.sub_diag, firstn_all, firstn_O. apply app_nil_r. Qed.
Lemma skipn_exact {A} n (a b : list A) : length a = n -> skipn n (a ++ b) = b.
Proof. intros <-. rewrite skipn_app, Nat.sub_diag, skipn_all. reflexivity. Qed.
Lemma skipn_skipn {A} a b (l : list A) : skipn a (skipn b l) = skipn (b + a) l.
Proof. revert l. induction b as [|b IH]; intro l; [reflexivity|]. destruct l as [|x l]; [now rewrite !skipn_nil|]. cbn [skipn Nat.add]. apply IH. Qed.
Lemma chunk {A} a b (l : list A) : skipn a l = firstn b (skipn a l) ++ skipn (a + b) l.
Proof. rewrite <- (firstn_skipn b (skipn a l)) at 1. f_equal. apply skipn_skipn. Qed.
Lemma skipn_nth {A} n (l : list A) d : (n < length l)%nat -> skipn n l = nth n l d :: skipn (S n) l.
Proof. revert l. induction n as [|n IH]; intros [|x l] L; cbn [length] in L; try lia; [reflexivity|]. cbn [skipn nth]. apply IH. lia. Qed.
Lemma pow256 k : 256 ^ Z.of_nat k = 2 ^ (8 * Z.of_nat k).
Proof. change 256 with (2 ^ 8). rewrite <- Z.pow_mul_r by lia. reflexivity. Qed.
Lemma r32 z : 0 <= z < 2 ^ 256 -> 0 <= z < 256 ^ Z.of_nat 32.
Proof. rewrite pow256. change (8 * Z.of_nat 32) with 256. tauto. Qed.
Lemma r32' z : 0 <= z < 256 ^ Z.of_nat 32 -> 0 <= z < 2 ^ 256.
Proof. rewrite pow256. change (8 * Z.of_nat 32) with 256. tauto. Qed.
Lemma r31 z : 0 <= z < 2 ^ 248 -> 0 <= z < 256 ^ Z.of_nat 31.
Proof. rewrite pow256. change (8 * Z.of_nat 31) with 248. tauto. Qed.
Lemma r4 z : 0 <= z < 2 ^ 32 -> 0 <= z < 256 ^ Z.of_nat 4.
Proof. rewrite pow256. change (8 * Z.of_nat 4) with 32. tauto. Qed.
(** ** base58 *)
Definition dstep (a d : Z) : Z := a * 58 + d.
Definition drange (d : Z) : Prop := 0 <= d < 58.
Lemma char_digit d : drange d -> b58_digit (b58_char d) = Some d.
Proof.
  intro R. assert (F : forallb (fun n => match b58_digit (b58_char (Z.of_nat n)) with Some x => x =? Z.of_nat n | None => false end) (seq 0 58) = true) by (vm_compute; reflexivity).
  rewrite forallb_forall in F. specialize (F (Z.to_nat d)). rewrite Z2Nat.id in F by (unfold drange in R; lia). unfold drange in R.
  assert (I : In (Z.to_nat d) (seq 0 58)) by (apply in_seq; lia). specialize (F I). destruct (b58_digit (b58_char d)) as [x|]; [|discriminate]. apply Z.eqb_eq in F. congruence.
Qed.
Lemma index_of_nth c l k : index_of c l = Some k -> nth k l (zb 0) = c /\ (k < length l)%nat.
Proof.
  revert k. induction l as [|x l IH]; intros k E; [discriminate|]. cbn [index_of] in E. destruct (byte_eqb_spec c x) as [->|N].
  - assert (k = O) by congruence. subst k. split; [reflexivity|cbn; lia].
  - destruct (index_of c l) as [j|]; [|discriminate]. assert (k = S j) by congruence. subst k. destruct (IH j eq_refl). split; [assumption|cbn; lia].
Qed.
Lemma digit_char c d : b58_digit c = Some d -> drange d /\ b58_char d = c.
Proof.
  unfold b58_digit. destruct (index_of c b58_alphabet) as [k|] eqn:E; [|discriminate]. intro H. assert (d = Z.of_nat k) by congruence. subst d.
  apply index_of_nth in E. destruct E as [E1 E2]. change (length b58_alphabet) with 58%nat in E2. unfold drange, b58_char. rewrite Nat2Z.id. split; [lia|exact E1].
Qed.
Lemma char_not1 d : drange d -> d <> 0 -> byte_eqb (b58_char d) (b58_char 0) = false.
Proof.
  intros R N. destruct (byte_eqb_spec (b58_char d) (b58_char 0)) as [E|]; [|reflexivity]. exfalso.
  pose proof (char_digit d R) as A. pose proof (char_digit 0 ltac:(unfold drange; lia)) as B. rewrite E in A. congruence.
Qed.
Lemma digits_value fuel : forall z acc, 0 <= z < 2 ^ Z.of_nat fuel -> fold_left dstep (b58_digits fuel z acc) 0 = fold_left dstep acc z.
Proof.
  induction fuel as [|f IH]; intros z acc R.
  - assert (z = 0) by (cbn in R; lia). subst z. reflexivity.
  - cbn [b58_digits]. destruct (Z.eqb_spec z 0) as [->|N]; [reflexivity|]. rewrite IH.
    + cbn [fold_left]. f_equal. unfold dstep. rewrite Z.mul_comm. symmetry. apply Z.div_mod. lia.
    + rewrite Nat2Z.inj_succ, Z.pow_succ_r in R by lia. split; [apply Z.div_pos; lia|]. apply Z.div_lt_upper_bound; lia.
Qed.
Lemma digits_range fuel : forall z acc, Forall drange acc -> Forall drange (b58_digits fuel z acc).
Proof.
  induction fuel as [|f IH]; intros z acc F; [exact F|]. cbn [b58_digits]. destruct (z =? 0); [exact F|]. apply IH. constructor; [|exact F]. apply Z.mod_pos_bound. lia.
Qed.
Lemma digits_head fuel : forall z acc, 0 < z < 2 ^ Z.of_nat fuel -> exists d r, b58_digits fuel z acc = d :: r /\ d <> 0.
Proof.
  induction fuel as [|f IH]; intros z acc R; [cbn in R; lia|]. cbn [b58_digits]. destruct (Z.eqb_spec z 0); [lia|].
  destruct (Z_lt_le_dec z 58) as [L|L].
  - rewrite Z.div_small, Z.mod_small by lia. exists z, acc. split; [destruct f; reflexivity|assumption].
  - apply IH. rewrite Nat2Z.inj_succ, Z.pow_succ_r in R by lia. split; [apply Z.div_str_pos; lia|]. apply Z.div_lt_upper_bound; lia.
Qed.
Lemma digits_unique ds : Forall drange ds -> (forall d r, ds = d :: r -> d <> 0) ->
  0 <= fold_left dstep ds 0 /\ (ds <> [] -> 0 < fold_left dstep ds 0) /\ forall fuel acc, fold_left dstep ds 0 < 2 ^ Z.of_nat fuel -> b58_digits fuel (fold_left dstep ds 0) acc = ds ++ acc.
Proof.
  induction ds as [|d ds IH] using rev_ind; intros F Hh.
  - cbn [fold_left]. split; [lia|]. split; [contradiction|]. intros [|f] acc _; reflexivity.
  - apply Forall_app in F. destruct F as [F Fd]. inversion Fd as [|? ? D _]; subst. unfold drange in D.
    assert (Hh' : forall d0 r, ds = d0 :: r -> d0 <> 0) by (intros d0 r ->; exact (Hh d0 (r ++ [d]) eq_refl)).
    destruct (IH F Hh') as [A [B0 U]]. rewrite fold_left_app. cbn [fold_left]. set (v := fold_left dstep ds 0) in *. unfold dstep at 1 2 3 4.
    assert (P : 0 < v * 58 + d). { destruct ds as [|d0 r]; [|assert (0 < v) by (apply B0; discriminate); lia]. pose proof (Hh d [] eq_refl). lia. }
    split; [lia|]. split; [intros _; exact P|]. intros [|f] acc R; [cbn in R; lia|]. cbn [b58_digits]. destruct (Z.eqb_spec (v * 58 + d) 0); [lia|].
    rewrite Nat2Z.inj_succ, Z.pow_succ_r in R by lia.
    replace ((v * 58 + d) / 58) with v by (apply (Z.div_unique_pos _ _ v d); lia). replace ((v * 58 + d) mod 58) with d by (apply (Z.mod_unique_pos _ _ v d); lia).
    rewrite U by lia. rewrite <- app_assoc. reflexivity.
Qed.
Lemma value_chars ds : forall acc, Forall drange ds -> b58_value (map b58_char ds) acc = Some (fold_left dstep ds acc).
Proof.
  induction ds as [|d ds IH]; intros acc F; [reflexivity|]. inversion F; subst. cbn [map b58_value fold_left]. rewrite char_digit by assumption. now apply IH.
Qed.
Lemma value_ones k s : b58_value (repeat (b58_char 0) k ++ s) 0 = b58_value s 0.
Proof.
  induction k as [|k IH]; [reflexivity|]. cbn [repeat app b58_value]. rewrite char_digit by (unfold drange; lia). exact IH.
Qed.
Lemma value_inv s : forall acc z, b58_value s acc = Some z -> exists ds, Forall drange ds /\ s = map b58_char ds /\ z = fold_left dstep ds acc.
Proof.
  induction s as [|c s IH]; intros acc z E; cbn [b58_value] in E.
  - exists []. split; [constructor|]. split; [reflexivity|]. cbn. congruence.
  - destruct (b58_digit c) as [d|] eqn:D; [|discriminate]. destruct (digit_char _ _ D) as [R <-]. destruct (IH _ _ E) as [ds [F [-> ->]]]. exists (d :: ds). split; [now constructor|]. split; reflexivity.
Qed.
Lemma lead0_strip b : repeat (zb 0) (lead0 b) ++ strip0 b = b.
Proof.
  induction b as [|c b IH]; [reflexivity|]. cbn [lead0 strip0]. destruct (Z.eqb_spec (bz c) 0) as [E|E]; [|reflexivity]. cbn [repeat app]. rewrite IH. f_equal. rewrite <- E. apply zb_bz.
Qed.
Lemma lead1_app k ds : Forall drange ds -> (forall d r, ds = d :: r -> d <> 0) -> lead1 (repeat (b58_char 0) k ++ map b58_char ds) = k.
Proof.
  intros F Hh. induction k as [|k IH]; cbn [repeat app].
  - destruct ds as [|d r]; [reflexivity|]. inversion F; subst. cbn [map lead1]. rewrite char_not1; [reflexivity|assumption|]. exact (Hh d r eq_refl).
  - cbn [lead1]. rewrite byte_eqb_refl. now rewrite IH.
Qed.
Lemma fuel_ok z : 0 <= z -> z < 2 ^ Z.of_nat (S (Z.to_nat (Z.log2 z))).
Proof.
  intro H. destruct (Z.eq_dec z 0) as [->|N]; [reflexivity|]. rewrite Nat2Z.inj_succ, Z2Nat.id by apply Z.log2_nonneg. apply Z.log2_spec. lia.
Qed.
Local Opaque b58_char b58_digit.
(** every byte string survives base58 *)
Theorem C45_base58 b : b58_decode (b58_encode b) = b.
Proof.
  unfold b58_decode, b58_encode. set (z := of_be b). set (fuel := S (Z.to_nat (Z.log2 z))).
  assert (Z0 : 0 <= z) by (apply of_be_range). pose proof (fuel_ok z Z0) as FU. fold fuel in FU.
  assert (F : Forall drange (b58_digits fuel z [])) by (apply digits_range; constructor).
  rewrite value_ones, value_chars by exact F. rewrite digits_value by lia. cbn [fold_left]. rewrite lead1_app; [|exact F|].
  - unfold z. rewrite to_be_of_be. apply lead0_strip.
  - intros d r E. destruct (Z.eq_dec z 0) as [E0|N].
    + rewrite E0 in E. destruct fuel; discriminate.
    + destruct (digits_head fuel z [] ltac:(lia)) as [d' [r' [E' N']]]. congruence.
Qed.
Lemma ones_split ds : Forall drange ds -> exists k ds', ds = repeat 0 k ++ ds' /\ Forall drange ds' /\ (forall d r, ds' = d :: r -> d <> 0).
Proof.
  induction ds as [|d ds IH]; intro F.
  - exists O, []. split; [reflexivity|]. split; [constructor|]. intros; discriminate.
  - inversion F as [|? ? D F']; subst. destruct (Z.eq_dec d 0) as [->|N].
    + destruct (IH F') as [k [ds' [-> [F2 Hh]]]]. exists (S k), ds'. now split.
    + exists O, (d :: ds). split; [reflexivity|]. split; [exact F|]. intros d0 r E. congruence.
Qed.
Lemma fold_zeros k ds : fold_left dstep (repeat 0 k ++ ds) 0 = fold_left dstep ds 0.
Proof. induction k as [|k IH]; [reflexivity|exact IH]. Qed.
Lemma map_repeat {A B} (f : A -> B) a k : map f (repeat a k) = repeat (f a) k.
Proof. induction k as [|k IH]; [reflexivity|]. cbn. now rewrite IH. Qed.
Lemma lead0_app k b : no_lead0 b -> lead0 (repeat (zb 0) k ++ b) = k.
Proof.
  intro N. induction k as [|k IH]; cbn [repeat app lead0].
  - destruct b as [|c b]; [reflexivity|]. cbn [lead0]. unfold no_lead0 in N. destruct (Z.eqb_spec (bz c) 0); [contradiction|reflexivity].
  - change (bz (zb 0)) with 0. cbn [Z.eqb]. now rewrite IH.
Qed.
(** and every text over the alphabet is the encoding of what it decodes to: there is one text per byte string *)
Theorem C45_base58_canonical s : b58_value s 0 <> None -> b58_encode (b58_decode s) = s.
Proof.
  intro V. unfold b58_decode. destruct (b58_value s 0) as [z|] eqn:E; [clear V|contradiction]. destruct (value_inv _ _ _ E) as [ds [F [-> ->]]]. clear E.
  destruct (ones_split ds F) as [k [ds' [-> [F' Hh]]]]. rewrite fold_zeros, map_app, map_repeat, lead1_app by assumption.
  destruct (digits_unique ds' F' Hh) as [A [_ U]]. set (z := fold_left dstep ds' 0) in *. unfold b58_encode.
  rewrite lead0_app by apply to_be_no_lead0. f_equal. rewrite of_be_zeros, of_be_to_be_nonneg by lia. rewrite U by (now apply fuel_ok). now rewrite app_nil_r.
Qed.

(** ** compressed keys *)
Section Parse.
  Variables P B : Z.
  Hypothesis HP : prime P.
  Hypothesis HP4 : P mod 4 = 3.
  Definition on_weierstrass (p : point) : Prop := 0 <= px p < P /\ 0 <= py p < P /\ cong P (py p * py p) (px p * px p * px p + B).

  Lemma p_odd : Z.odd P = true.
  Proof. rewrite (Z.div_mod P 4) by lia. rewrite HP4. rewrite Z.odd_add, Z.odd_mul. reflexivity. Qed.
  (** y^((P+1)/4)^2 ... : the candidate root of a square is a root *)
  Lemma sqrt_square y : 0 <= y < P -> let r := powm (y * y mod P) ((P + 1) / 4) P in r = y \/ (y <> 0 /\ r = P - y).
  Proof.
    intro R. pose proof (prime_ge_2 _ HP) as P2. cbv zeta. set (k := (P + 1) / 4).
    assert (EK : P = 4 * k - 1). { unfold k. rewrite (Z.div_mod P 4) by lia. rewrite HP4. replace (4 * (P / 4) + 3 + 1) with ((P / 4 + 1) * 4) by ring. rewrite Z.div_mul by lia. ring. }
    assert (K0 : 1 <= k) by lia. rewrite powm_eq by lia. set (r := (y * y mod P) ^ k mod P). assert (Rr : 0 <= r < P) by (apply Z.mod_pos_bound; lia).
    destruct (Z.eq_dec y 0) as [->|N].
    { left. unfold r. change (0 * 0) with 0. rewrite Z.mod_0_l by lia. rewrite Z.pow_0_l by lia. apply Z.mod_0_l. lia. }
    assert (G : Z.gcd y P = 1). { apply Zgcd_1_rel_prime. apply rel_prime_sym. apply prime_rel_prime; [exact HP|]. intros [c Hc]. assert (c = 0 \/ 1 <= c \/ c <= -1) by lia. nia. }
    assert (C1 : cong P (r * r) (y * y)).
    { unfold r. rewrite (cong_mod P ((y * y mod P) ^ k)) by lia. rewrite (cong_pow _ _ _ k (cong_mod P (y * y) ltac:(lia))).
      rewrite <- Z.pow_add_r by lia. replace (y * y) with (y ^ 2) by ring. rewrite <- !Z.pow_mul_r by lia. replace (2 * (k + k)) with (P - 1 + 2) by lia. rewrite Z.pow_add_r by lia.
      rewrite (Euler.fermat P y HP G). rewrite Z.mul_1_l. reflexivity. }
    assert (D : (P | (r - y) * (r + y))) by (replace ((r - y) * (r + y)) with (r * r - y * y) by ring; exact C1).
    apply prime_mult in D; [|exact HP]. destruct D as [[c Hc]|[c Hc]].
    - left. assert (c = 0) by nia. lia.
    - right. split; [exact N|]. assert (c = 1) by nia. lia.
  Qed.
  (** on a point of the curve the decompression finds exactly this point *)
  Lemma decompress_ok x y : on_weierstrass (x, y) -> decompress P B x (Z.odd y) = Some y.
  Proof.
    intros [Rx [Ry C]]. cbn [px py fst snd] in *. pose proof (prime_ge_2 _ HP). unfold decompress. rewrite (Z.mod_small x) by lia.
    assert (E : (x * x * x + B) mod P = y * y mod P) by (apply cong_eq; [lia|]; symmetry; exact C). rewrite E.
    pose proof (sqrt_square y Ry) as S. cbv zeta in S. set (r := powm (y * y mod P) ((P + 1) / 4) P) in *. clearbody r.
    assert (Y : (if Bool.eqb (Z.odd y) (Z.odd r) then r else (- r) mod P) = y).
    { destruct S as [->|[N ->]]; [now rewrite Bool.eqb_reflx|]. rewrite Z.odd_sub, p_odd. destruct (Z.odd y); cbn [xorb Bool.eqb].
      - symmetry. apply (Z.mod_unique_pos _ _ (-1)); lia.
      - symmetry. apply (Z.mod_unique_pos _ _ (-1)); lia. }
    rewrite Y. rewrite Z.eqb_refl. cbn [negb]. now rewrite Bool.eqb_reflx.
  Qed.
  (** what decompression delivers is on the curve (over the reduced x) with the wanted parity *)
  Lemma decompress_inv X b y : decompress P B X b = Some y -> on_weierstrass (X mod P, y) /\ Z.odd y = b.
  Proof.
    pose proof (prime_ge_2 _ HP). unfold decompress. set (x := X mod P). assert (Rx : 0 <= x < P) by (apply Z.mod_pos_bound; lia). set (x3 := (x * x * x + B) mod P).
    set (y0 := powm x3 ((P + 1) / 4) P). assert (R0 : 0 <= y0 < P). { unfold y0. rewrite powm_eq; [apply Z.mod_pos_bound; lia|lia|]. apply Z.div_pos; lia. }
    set (y1 := if Bool.eqb b (Z.odd y0) then y0 else (- y0) mod P). assert (R1 : 0 <= y1 < P). { unfold y1. destruct (Bool.eqb _ _); [exact R0|apply Z.mod_pos_bound; lia]. }
    clearbody y1. destruct (Z.eqb_spec (y1 * y1 mod P) x3) as [E|]; [|discriminate]. cbn [negb]. destruct (Bool.eqb b (Z.odd y1)) eqn:Ev; [|discriminate]. cbn [negb].
    intro Es. assert (y1 = y) by congruence. subst y1. apply Bool.eqb_prop in Ev. split; [|now symmetry]. unfold on_weierstrass. cbn [px py fst snd]. split; [exact Rx|]. split; [exact R1|].
    apply cong_eq; [lia|]. exact E.
  Qed.
  Hypothesis HPr : P < 2 ^ 256.
  Lemma ser_comp_length p : 0 <= px p < 2 ^ 256 -> length (ser_comp p) = 33%nat.
  Proof.
    intro R. unfold ser_comp. cbn [length]. rewrite app_length, repeat_length. pose proof (be_fixed_pad 32 (px p) (r32 _ R)) as BP. apply (f_equal (@length _)) in BP. rewrite be_fixed_length, app_length, repeat_length in BP. lia.
  Qed.
  Lemma ser_comp_fixed p : 0 <= px p < 2 ^ 256 -> ser_comp p = zb (if Z.odd (py p) then 3 else 2) :: be_fixed 32 (px p).
  Proof. intro R. unfold ser_comp. now rewrite (be_fixed_pad 32 (px p) (r32 _ R)). Qed.
  (** every point of the curve survives compression and parsing *)
  Theorem C45_pubkey p : on_weierstrass p -> parse33 P B (ser_comp p) = Some p.
  Proof.
    intro O. assert (R : 0 <= px p < 2 ^ 256) by (destruct O; lia). pose proof (ser_comp_length p R) as L. rewrite ser_comp_fixed in * by exact R. unfold parse33. rewrite L, Nat.eqb_refl. cbn [negb].
    rewrite of_be_be_fixed by (apply r32; exact R). destruct p as [x y]. cbn [px py fst snd] in *.
    assert (D : decompress P B x (Z.odd y) = Some y) by now apply decompress_ok.
    destruct (Z.odd y); cbn; rewrite D; reflexivity.
  Qed.
  (** what is accepted: 33 bytes, prefix 2 or 3, and the reduced x has a root of the wanted parity *)
  Theorem C45_pubkey_inv k p : parse33 P B k = Some p -> length k = 33%nat /\ on_weierstrass (px p mod P, py p) /\ 0 <= px p < 2 ^ 256 /\ k = ser_comp p.
  Proof.
    unfold parse33. destruct k as [|f xs]; [discriminate|]. destruct (Nat.eqb_spec (length (f :: xs)) 33) as [L|]; [|discriminate]. cbn [negb].
    destruct ((bz f =? 2) || (bz f =? 3)) eqn:Ef; [|discriminate]. cbn [negb]. destruct (decompress _ _ _ _) as [y|] eqn:D; [|discriminate]. intro E.
    assert (p = (of_be xs, y)) by congruence. subst p. clear E. cbn [px py fst snd]. destruct (decompress_inv _ _ _ D) as [O Par].
    assert (Lx : length xs = 32%nat) by (cbn in L; lia). assert (R : 0 <= of_be xs < 2 ^ 256). { pose proof (of_be_range xs) as R. rewrite Lx in R. apply r32'. exact R. }
    split; [exact L|]. split; [exact O|]. split; [exact R|]. rewrite ser_comp_fixed by exact R. cbn [px py fst snd]. f_equal; [|rewrite <- Lx; symmetry; apply be_fixed_of_be].
    rewrite Par. apply bz_inj. apply orb_true_iff in Ef. destruct Ef as [Ef|Ef]; apply Z.eqb_eq in Ef; rewrite Ef; reflexivity.
  Qed.
  (** the x coordinate is not compared with the field prime: with a point (x, y) also x + P is accepted, when it fits in 32 bytes *)
  Theorem C45_unreduced_refuted x y : on_weierstrass (x, y) -> x + P < 2 ^ 256 -> parse33 P B (ser_comp (x + P, y)) = Some (x + P, y) /\ ~ (px (x + P, y) < P).
  Proof.
    intros O Lt. pose proof O as [Rx [Ry _]]. cbn [px py fst snd] in *. split; [|lia]. assert (R : 0 <= x + P < 2 ^ 256) by lia.
    pose proof (ser_comp_length (x + P, y) R) as L. rewrite ser_comp_fixed in * by exact R. unfold parse33. rewrite L, Nat.eqb_refl. cbn [negb px py fst snd]. rewrite of_be_be_fixed by (apply r32; exact R).
    assert (D : decompress P B (x + P) (Z.odd y) = Some y). { pose proof (decompress_ok x y O) as D. unfold decompress in *. replace ((x + P) mod P) with (x mod P); [exact D|]. replace (x + P) with (x + 1 * P) by ring. symmetry. apply Z.mod_add. lia. }
    destruct (Z.odd y); cbn; rewrite D; reflexivity.
  Qed.

  (** ** the text form *)
  Section Text.
    Variable S2 : bytes -> bytes.
    Hypothesis S2len : forall b, length (S2 b) = 32%nat.
    Lemma checksum_length b : length (checksum S2 b) = 4%nat.
    Proof. unfold checksum. rewrite firstn_length, S2len. reflexivity. Qed.
    (** a key of BIP-32 shape: four version bytes, four fingerprint bytes, 32 bytes of chain code, depth and index in range, public key on the curve *)
    Definition bip32_shape (k : ekey) : Prop :=
      length (ek_ver k) = 4%nat /\ length (ek_fp k) = 4%nat /\ length (ek_cc k) = 32%nat /\ 0 <= ek_depth k < 256 /\ 0 <= ek_index k < 2 ^ 32 /\ exists p, ek_pub k = Some p /\ on_weierstrass p.
    (** the part of a key that the text carries *)
    Definition public_part (k : ekey) : ekey :=
      {| ek_pub := ek_pub k; ek_ded := None; ek_depth := ek_depth k; ek_index := ek_index k; ek_priv := []; ek_cc := ek_cc k; ek_fp := ek_fp k; ek_ver := ek_ver k |}.
    Theorem C45_roundtrip_partial k : bip32_shape k -> exists s, ek_string S2 k = Ret s /\ ek_parse P B S2 true s = Some (public_part k).
    Proof.
      intros [Lv [Lf [Lc [Rd [Ri [p [Ep O]]]]]]]. unfold ek_string. rewrite Ep. cbn [deref obind]. eexists. split; [reflexivity|]. unfold ek_parse. rewrite C45_base58.
      assert (R : 0 <= px p < 2 ^ 256) by (destruct O; lia). pose proof (ser_comp_length p R) as Ls.
      assert (Lp : length (ek_payload k p) = 78%nat). { unfold ek_payload, u32be. rewrite !app_length, Lv, Lf, Lc, Ls, be_fixed_length. reflexivity. }
      rewrite app_length, Lp, checksum_length. cbn [Nat.add Nat.eqb negb]. rewrite (firstn_exact 78), (skipn_exact 78) by exact Lp. rewrite (proj2 (bytes_eqb_eq _ _) eq_refl). cbn [negb].
      unfold ek_payload, public_part, u32be. rewrite Ep. destruct k as [pub ded depth index priv cc fp ver]. cbn [ek_pub ek_ded ek_depth ek_index ek_priv ek_cc ek_fp ek_ver] in *.
      set (ix := be_fixed 4 index). assert (Li : length ix = 4%nat) by apply be_fixed_length. set (sc := ser_comp p) in *.
      assert (A1 : firstn 4 (ver ++ [zb depth] ++ fp ++ ix ++ cc ++ sc) = ver) by (now apply firstn_exact).
      assert (A2 : nth 4 (ver ++ [zb depth] ++ fp ++ ix ++ cc ++ sc) (zb 0) = zb depth) by (rewrite app_nth2 by lia; rewrite Lv; reflexivity).
      assert (A3 : skipn 5 (ver ++ [zb depth] ++ fp ++ ix ++ cc ++ sc) = fp ++ ix ++ cc ++ sc) by (rewrite (app_assoc ver); apply skipn_exact; rewrite app_length, Lv; reflexivity).
      assert (A4 : skipn 9 (ver ++ [zb depth] ++ fp ++ ix ++ cc ++ sc) = ix ++ cc ++ sc) by (rewrite (app_assoc ver), (app_assoc (ver ++ _)); apply skipn_exact; rewrite !app_length, Lv, Lf; reflexivity).
      assert (A5 : skipn 13 (ver ++ [zb depth] ++ fp ++ ix ++ cc ++ sc) = cc ++ sc) by (rewrite (app_assoc ver), (app_assoc (ver ++ _)), (app_assoc ((ver ++ _) ++ _)); apply skipn_exact; rewrite !app_length, Lv, Lf, Li; reflexivity).
      assert (A6 : skipn 45 (ver ++ [zb depth] ++ fp ++ ix ++ cc ++ sc) = sc) by (rewrite (app_assoc ver), (app_assoc (ver ++ _)), (app_assoc ((ver ++ _) ++ _)), (app_assoc (((ver ++ _) ++ _) ++ _)); apply skipn_exact; rewrite !app_length, Lv, Lf, Li, Lc; reflexivity).
      rewrite A1, A2, A3, A4, A5, A6. rewrite (firstn_exact 4 fp), (firstn_exact 4 ix), (firstn_exact 32 cc) by assumption. unfold sc. rewrite (C45_pubkey p O). do 2 f_equal; [now apply bz_zb_small|].
      apply of_be_be_fixed. apply r4. exact Ri.
    Qed.
    (** every accepted text is the canonical text of the fields it delivers: one text per key, and the checksum is the double hash *)
    Theorem C45_accepted s k : ek_parse P B S2 true s = Some k -> ek_string S2 k = Ret s /\ k = public_part k /\ exists p, ek_pub k = Some p /\ on_weierstrass (px p mod P, py p).
    Proof.
      unfold ek_parse. set (d := b58_decode s). destruct (Nat.eqb_spec (length d) 82) as [L|]; [|discriminate]. cbn [negb].
      destruct (bytes_eqb (skipn 78 d) (checksum S2 (firstn 78 d))) eqn:CS; [|discriminate]. cbn [negb]. apply bytes_eqb_eq in CS.
      destruct (parse33 P B (skipn 45 (firstn 78 d))) as [p|] eqn:Pa; [|discriminate]. intro E.
      destruct (C45_pubkey_inv _ _ Pa) as [_ [O [_ Ser]]].
      assert (V : b58_value s 0 <> None). { intro V. unfold d, b58_decode in L. rewrite V in L. discriminate. }
      assert (D : d = firstn 78 d ++ skipn 78 d) by (symmetry; apply firstn_skipn). rewrite CS in D. set (pl := firstn 78 d) in *. assert (Lpl : length pl = 78%nat) by (unfold pl; rewrite firstn_length; lia).
      match type of E with Some ?x = Some ?y => assert (K : y = x) by congruence end. clear E. subst k. split; [|split; [reflexivity|exists p; now split]].
      unfold ek_string. cbn [ek_pub deref obind]. f_equal. unfold ek_payload. cbn [ek_ver ek_depth ek_fp ek_index ek_cc]. rewrite zb_bz. unfold u32be.
      assert (EI : be_fixed 4 (of_be (firstn 4 (skipn 9 pl))) = firstn 4 (skipn 9 pl)). { rewrite <- (be_fixed_of_be (firstn 4 (skipn 9 pl))) at 2. f_equal. rewrite firstn_length, skipn_length, Lpl. reflexivity. }
      rewrite EI, <- Ser.
      assert (W : firstn 4 pl ++ [nth 4 pl (zb 0)] ++ firstn 4 (skipn 5 pl) ++ firstn 4 (skipn 9 pl) ++ firstn 32 (skipn 13 pl) ++ skipn 45 pl = pl).
      { pose proof (chunk 13 32 pl) as K1. pose proof (chunk 9 4 pl) as K2. pose proof (chunk 5 4 pl) as K3. cbn [Nat.add] in K1, K2, K3. rewrite <- K1, <- K2, <- K3. change ([nth 4 pl (zb 0)] ++ skipn 5 pl) with (nth 4 pl (zb 0) :: skipn 5 pl). rewrite <- skipn_nth by lia. apply firstn_skipn. }
      rewrite W, <- D. unfold d. now apply C45_base58_canonical.
    Qed.
    (** changing the text without changing the key fields, or the other way round, is impossible; a text that differs only in the checksum is rejected *)
    Theorem C45_altered s s' k k' : ek_parse P B S2 true s = Some k -> ek_parse P B S2 true s' = Some k' -> (s = s' <-> k = k').
    Proof.
      intros E E'. split; [intros ->; congruence|intros ->]. destruct (C45_accepted _ _ E) as [A _]. destruct (C45_accepted _ _ E') as [A' _]. congruence.
    Qed.
    (** ** what fails *)
    (** keys made by the package itself carry a one-byte version: their text never parses *)
    Lemma short_version_fails k s : length (ek_ver k) = 1%nat -> length (ek_fp k) = 4%nat -> length (ek_cc k) = 32%nat -> (exists p, ek_pub k = Some p /\ 0 <= px p < 2 ^ 256) ->
      ek_string S2 k = Ret s -> forall koblitz, ek_parse P B S2 koblitz s = None.
    Proof.
      intros Lv Lf Lc [p [Ep R]] E koblitz. unfold ek_string in E. rewrite Ep in E. cbn [deref obind] in E. assert (s = b58_encode (ek_payload k p ++ checksum S2 (ek_payload k p))) by congruence. subst s.
      unfold ek_parse. rewrite C45_base58. rewrite app_length, checksum_length. unfold ek_payload, u32be. rewrite !app_length, Lv, Lf, Lc, be_fixed_length, (ser_comp_length p R). reflexivity.
    Qed.
    Theorem C45_own_keys_refuted H160 priv pub ded index depth cc s : (forall b, length (H160 b) = 20%nat) -> length cc = 32%nat -> 0 <= px pub < 2 ^ 256 ->
      ek_string S2 (ek_new H160 priv pub ded index depth cc) = Ret s -> forall koblitz, ek_parse P B S2 koblitz s = None.
    Proof.
      intros HL Lc R E. eapply short_version_fails; [| | | |exact E]; cbn [ek_new ek_ver ek_fp ek_cc ek_pub]; [reflexivity|rewrite firstn_length, HL; reflexivity|exact Lc|exists pub; now split].
    Qed.
    (** and so do all their descendants *)
    Theorem C45_own_children_refuted C N HM H160 private index h k il k' s : (forall b, length (H160 b) = 20%nat) -> (forall a b, length (HM a b) = 64%nat) -> (forall p, on C p = true -> 0 <= px p < 2 ^ 256) ->
      length (ek_ver k) = 1%nat -> ek_child C N HM H160 private index h k = Ret (Some (il, k')) -> ek_string S2 k' = Ret s -> forall koblitz, ek_parse P B S2 koblitz s = None.
    Proof.
      intros HL ML CR Lv E Es. unfold ek_child in E. destruct (2 ^ 31 <=? index); [discriminate|]. destruct (ek_depth k =? 255); [discriminate|].
      destruct (new_point_opt C (ek_pub k)) as [pub|]; [|discriminate]. destruct (new_point_opt C (ek_ded k)) as [ded|]; [|discriminate].
      destruct (_ || _); [discriminate|]. destruct (base_mul _ _) as [dg|]; [|discriminate]. cbn [deref obind] in E. destruct (_ || _); [discriminate|].
      destruct (pt_add C pub dg) as [pub'|] eqn:A1; [|discriminate]. destruct (pt_add C ded dg) as [ded'|]; [|discriminate].
      match type of E with Ret (Some (_, ?x)) = _ => assert (K : k' = x) by congruence end. clear E. subst k'.
      eapply short_version_fails; [| | | |exact Es]; cbn [ek_ver ek_fp ek_cc ek_pub]; [exact Lv|rewrite firstn_length, HL; reflexivity|rewrite skipn_length, ML; reflexivity|].
      exists pub'. split; [reflexivity|]. apply CR. unfold pt_add, new_point in A1. destruct (c_on C _ _) eqn:On; [|discriminate]. assert (pub' = (px (c_add C pub dg), py (c_add C pub dg))) by congruence. subst pub'. exact On.
    Qed.
    (** a parsed key has no root key: it can never derive a child *)
    Theorem C45_parsed_cannot_derive_refuted C N HM H160 koblitz s k private index h : ek_parse P B S2 koblitz s = Some k -> ek_child C N HM H160 private index h k = Ret None.
    Proof.
      intro E. assert (D : ek_ded k = None).
      { unfold ek_parse in E. destruct (negb _); [discriminate|]. destruct (negb _); [discriminate|]. destruct koblitz; [destruct (parse33 _ _ _); [|discriminate]|]; (match type of E with Some ?x = _ => assert (K : k = x) by congruence end; subst k; reflexivity). }
      unfold ek_child. rewrite D. cbn [new_point_opt]. destruct (2 ^ 31 <=? index); [reflexivity|]. destruct (ek_depth k =? 255); [reflexivity|]. destruct (new_point_opt C (ek_pub k)); reflexivity.
    Qed.
    (** with any other curve the key bytes are ignored: the result has a nil public key and no error is reported, and printing it panics *)
    Theorem C45_other_curve_refuted k : bip32_shape k -> exists s k', ek_string S2 k = Ret s /\ ek_parse P B S2 false s = Some k' /\ ek_pub k' = None /\ ek_string S2 k' = Panic.
    Proof.
      intro Sh. destruct (C45_roundtrip_partial k Sh) as [s [E1 E2]]. unfold ek_parse in E2. exists s. unfold ek_parse. destruct (negb _); [discriminate|]. destruct (negb _); [discriminate|].
      eexists. split; [exact E1|]. split; [reflexivity|]. split; reflexivity.
    Qed.
  End Text.
End Parse.

(** a concrete key on the toy curve y^2 = x^3 + 7 over the field of 11 elements *)
Definition toy_key : ekey :=
  {| ek_pub := Some (2, 2); ek_ded := Some (2, 2); ek_depth := 3; ek_index := 70000; ek_priv := [zb 9]; ek_cc := repeat (zb 17) 32; ek_fp := [zb 0; zb 1; zb 2; zb 3]; ek_ver := [zb 4; zb 136; zb 178; zb 30] |}.
Theorem C45_example : prime 11 /\ 11 mod 4 = 3 /\ bip32_shape 11 7 toy_key /\ on_weierstrass 11 7 (2, 2) /\ b58_encode [zb 0; zb 1; zb 2] = str "15T" /\ b58_decode (str "15T") = [zb 0; zb 1; zb 2] /\ parse33 11 7 (ser_comp (13, 2)) = Some (13, 2).
Proof.
  assert (O : on_weierstrass 11 7 (2, 2)) by (split; [cbn; lia|split; [cbn; lia|exists (-1); reflexivity]]).
  assert (P11 : prime 11) by (apply PropPrimes.small_prime; [lia|reflexivity]).
  split; [exact P11|]. split; [reflexivity|]. split; [repeat (split; [cbn; lia|]); exists (2, 2); split; [reflexivity|exact O]|]. split; [exact O|]. split; [reflexivity|]. split; [reflexivity|]. 
  apply (C45_unreduced_refuted 11 7 P11 eq_refl 2 2 O). lia.
Qed.

(** ** C51: derivation *)
(** a curve whose points other than infinity are the multiples e 1 .. e (n-1) of the base point; infinity is not a point of the curve
    (this holds of secp256k1, which has prime order n and cofactor 1) *)
Record cyclic_laws (C : curve) (e : Z -> point) : Prop := {
  cy_n : 1 < c_n C < 2 ^ 256;
  cy_mod : forall k, e (k mod c_n C) = e k;
  cy_on : forall k, on C (e k) = negb (k mod c_n C =? 0);
  cy_inj : forall j k, e j = e k -> j mod c_n C = k mod c_n C;
  cy_base : forall k, 0 <= k -> c_bmul C k = e k;
  cy_add : forall j k, j mod c_n C <> 0 -> k mod c_n C <> 0 -> c_add C (e j) (e k) = e (j + k);
  cy_coord : forall k, k mod c_n C <> 0 -> 0 <= px (e k) < 2 ^ 256
}.
Section C51.
  Variable C : curve.
  Variable e : Z -> point.
  Hypothesis L : cyclic_laws C e.
  Variable HM : bytes -> bytes -> bytes.
  Variable H160 : bytes -> bytes.
  Notation ord := (c_n C).
  Notation child := (ek_child C ord HM H160).
  Notation path := (ek_path C ord HM H160).

  Lemma new_point_e k : new_point C (px (e k)) (py (e k)) = if k mod ord =? 0 then None else Some (e k).
  Proof. unfold new_point. fold (on C (e k)). rewrite (cy_on C e L). destruct (k mod ord =? 0); [reflexivity|]. cbn. f_equal. now destruct (e k). Qed.
  (** one step on a key with public key a G and root key b G, in closed form *)
  Definition hd_offset (cc data : bytes) : option (Z * bytes) :=
    let il := of_be (firstn 32 (HM cc data)) in
    if (ord <=? il) || (il =? 0) then None else
    if (px (e il) =? 0) || (py (e il) =? 0) then None else Some (il, skipn 32 (HM cc data)).
  Lemma child_eq private index h k a b : ek_pub k = Some (e a) -> ek_ded k = Some (e b) -> a mod ord <> 0 -> b mod ord <> 0 ->
    child private index h k = Ret (
      if (2 ^ 31 <=? index) || (ek_depth k =? 255) then None else
      let idx := if h then index + 2 ^ 31 else index in
      match hd_offset (ek_cc k) ((if h then zb 0 :: ek_priv k else ser_comp (e b)) ++ u32be idx) with
      | None => None
      | Some (il, cc') =>
        if ((a + il) mod ord =? 0) || ((b + il) mod ord =? 0) then None else
        Some (il, {| ek_pub := Some (e (a + il)); ek_ded := Some (e (b + il)); ek_depth := ek_depth k + 1; ek_index := idx;
                     ek_priv := (if private then to_be ((il + of_be (ek_priv k)) mod ord) else []); ek_cc := cc'; ek_fp := firstn 4 (H160 (ser_comp (e b))); ek_ver := ek_ver k |})
      end).
  Proof.
    intros Ea Eb Na Nb. unfold ek_child. destruct (2 ^ 31 <=? index); [reflexivity|]. destruct (ek_depth k =? 255); [reflexivity|]. cbn [orb]. rewrite Ea, Eb. cbn [new_point_opt]. rewrite !new_point_e.
    destruct (Z.eqb_spec (a mod ord) 0); [contradiction|]. destruct (Z.eqb_spec (b mod ord) 0); [contradiction|]. cbv zeta. unfold hd_offset.
    set (data := _ ++ u32be _). set (il := of_be (firstn 32 (HM (ek_cc k) data))). pose proof (cy_n C e L) as Hn. assert (I0 : 0 <= il) by apply of_be_range.
    destruct (Z.leb_spec ord il); [reflexivity|]. destruct (Z.eqb_spec il 0); [reflexivity|]. cbn [orb].
    unfold base_mul. rewrite (cy_base C e L) by (apply Z.mod_pos_bound; lia). rewrite (Z.mod_small il) by lia. rewrite new_point_e. rewrite (Z.mod_small il) by lia. destruct (Z.eqb_spec il 0); [contradiction|]. cbn [deref obind].
    destruct ((px (e il) =? 0) || (py (e il) =? 0)); [reflexivity|]. unfold pt_add. rewrite !(cy_add C e L) by (try assumption; rewrite Z.mod_small; lia). rewrite !new_point_e.
    destruct ((a + il) mod ord =? 0); [reflexivity|]. cbn [orb]. destruct ((b + il) mod ord =? 0); reflexivity.
  Qed.
  Definition opt_fst {A B} (o : outcome (option (A * B))) : outcome (option A) := match o with Ret (Some (a, _)) => Ret (Some a) | Ret None => Ret None | Panic => Panic end.

  (** *** one step: private and public derivation agree, the secret moves with the point, the offset is the digest *)
  Theorem C51_step index k x b : ek_pub k = Some (e x) -> ek_ded k = Some (e b) -> x mod ord <> 0 -> b mod ord <> 0 -> of_be (ek_priv k) mod ord = x mod ord -> 0 <= index -> 
    (child true index false k = Ret None <-> child false index false k = Ret None) /\
    (forall il k', child true index false k = Ret (Some (il, k')) ->
       index < 2 ^ 31 /\ ek_depth k <> 255 /\ il = of_be (firstn 32 (HM (ek_cc k) (ser_comp (e b) ++ u32be index))) /\ 0 < il < ord /\
       ek_pub k' = Some (e (x + il)) /\ ek_ded k' = Some (e (b + il)) /\ of_be (ek_priv k') = (x + il) mod ord /\ 0 < of_be (ek_priv k') /\
       ek_cc k' = skipn 32 (HM (ek_cc k) (ser_comp (e b) ++ u32be index)) /\ ek_depth k' = ek_depth k + 1 /\ ek_index k' = index /\ ek_ver k' = ek_ver k /\ ek_fp k' = firstn 4 (H160 (ser_comp (e b))) /\
       exists kp, child false index false k = Ret (Some (il, kp)) /\ ek_priv kp = [] /\ ek_pub kp = ek_pub k' /\ ek_ded kp = ek_ded k' /\ ek_cc kp = ek_cc k' /\ ek_depth kp = ek_depth k' /\ ek_index kp = index).
  Proof.
    intros Ea Eb Na Nb Px I0. rewrite !(child_eq _ index false k x b Ea Eb Na Nb). cbv zeta.
    destruct (Z.leb_spec (2 ^ 31) index); [cbn [orb]; split; [tauto|intros; discriminate]|]. destruct (Z.eqb_spec (ek_depth k) 255); [cbn [orb]; split; [tauto|intros; discriminate]|]. cbn [orb].
    unfold hd_offset. set (data := ser_comp (e b) ++ u32be index). set (il := of_be (firstn 32 (HM (ek_cc k) data))). assert (0 <= il) by apply of_be_range. pose proof (cy_n C e L) as Hn.
    destruct (Z.leb_spec ord il); [cbn [orb]; split; [tauto|intros; discriminate]|]. destruct (Z.eqb_spec il 0); [cbn [orb]; split; [tauto|intros; discriminate]|]. cbn [orb].
    destruct (_ || _); [split; [tauto|intros; discriminate]|].
    destruct (Z.eqb_spec ((x + il) mod ord) 0) as [|Nx]; [cbn [orb]; split; [tauto|intros; discriminate]|]. destruct (Z.eqb_spec ((b + il) mod ord) 0); [cbn [orb]; split; [tauto|intros; discriminate]|]. cbn [orb].
    split; [split; discriminate|]. intros il' k' E. match type of E with Ret (Some (_, ?t)) = _ => assert (K : k' = t) by congruence end. assert (il' = il) by congruence. subst k' il'. clear E.
    cbn [ek_pub ek_ded ek_depth ek_index ek_priv ek_cc ek_fp ek_ver]. assert (PV : of_be (to_be ((il + of_be (ek_priv k)) mod ord)) = (x + il) mod ord).
    { rewrite of_be_to_be_nonneg by (apply Z.mod_pos_bound; lia). rewrite Z.add_comm, <- Z.add_mod_idemp_l by lia. rewrite Px. now rewrite Z.add_mod_idemp_l by lia. }
    rewrite PV. pose proof (Z.mod_pos_bound (x + il) ord ltac:(lia)). repeat (split; [first [reflexivity|assumption|lia]|]).
    eexists. split; [reflexivity|]. cbn [ek_pub ek_ded ek_depth ek_index ek_priv ek_cc]. repeat (split; [reflexivity|]). reflexivity.
  Qed.

  (** *** a whole path without hardened components *)
  Definition paired (k kp : ekey) : Prop :=
    ek_depth k = ek_depth kp /\ ek_cc k = ek_cc kp /\ ek_pub k = ek_pub kp /\ ek_ded k = ek_ded kp /\
    exists x b, ek_pub k = Some (e x) /\ ek_ded k = Some (e b) /\ x mod ord <> 0 /\ b mod ord <> 0 /\ of_be (ek_priv k) = x /\ x < ord /\ (length (ek_priv k) <= 32)%nat.
  Lemma to_be_len32 z : 0 <= z < ord -> (length (to_be z) <= 32)%nat.
  Proof. intro R. pose proof (cy_n C e L). pose proof (be_fixed_pad 32 z (r32 z ltac:(lia))) as BP. apply (f_equal (@length _)) in BP. rewrite be_fixed_length, app_length, repeat_length in BP. lia. Qed.
  Lemma component_paired part k kp : hardened part <> Ret true -> paired k kp ->
    match ek_component C ord HM H160 true part k, ek_component C ord HM H160 false part kp with
    | Panic, Panic => True
    | Ret None, Ret None => True
    | Ret (Some k'), Ret (Some kp') => paired k' kp'
    | _, _ => False
    end.
  Proof.
    intros Hh [E1 [E2 [E3 [E4 [x [b [Ea [Eb [Nx [Nb [Px [Lx Ll]]]]]]]]]]]]. unfold ek_component. destruct (hardened part) as [[|]|]; [congruence| |exact I]. cbn [obind negb andb].
    destruct (atoi part) as [idx|]; [|exact I]. destruct (idx <? 0); [exact I|]. rewrite (child_eq true _ false k x b Ea Eb Nx Nb).
    rewrite (child_eq false _ false kp x b); [|now rewrite <- E3|now rewrite <- E4|exact Nx|exact Nb]. cbn [obind]. rewrite <- E1, <- E2. cbv zeta. destruct (_ || _); [exact I|].
    unfold hd_offset. set (data := ser_comp (e b) ++ u32be (idx mod 2 ^ 32)). set (il := of_be (firstn 32 (HM (ek_cc k) data))). assert (0 <= il) by apply of_be_range. pose proof (cy_n C e L) as Hn.
    destruct (Z.leb_spec ord il); [exact I|]. cbn [orb]. destruct (Z.eqb_spec il 0); [exact I|]. destruct (_ || _); [exact I|].
    destruct (Z.eqb_spec ((x + il) mod ord) 0) as [|Nx']; [exact I|]. destruct (Z.eqb_spec ((b + il) mod ord) 0); [exact I|]. cbn [orb].
    unfold paired. cbn [ek_pub ek_ded ek_depth ek_cc ek_priv]. repeat (split; [reflexivity|]). exists ((x + il) mod ord), (b + il).
    pose proof (Z.mod_pos_bound (x + il) ord ltac:(lia)) as R. rewrite (cy_mod C e L). rewrite Z.mod_mod by lia. rewrite (Z.add_comm il), Px. split; [reflexivity|]. split; [reflexivity|]. split; [assumption|]. split; [assumption|].
    split; [apply of_be_to_be_nonneg; lia|]. split; [lia|apply to_be_len32; exact R].
  Qed.
  Lemma path_paired parts : forall k kp, Forall (fun p => hardened p <> Ret true) parts -> paired k kp ->
    match path true parts k, path false parts kp with
    | Panic, Panic => True
    | Ret None, Ret None => True
    | Ret (Some k'), Ret (Some kp') => paired k' kp'
    | _, _ => False
    end.
  Proof.
    induction parts as [|part r IH]; intros k kp F Pa; cbn [ek_path]; [exact Pa|]. inversion F as [|? ? F1 F2]; subst. pose proof (component_paired part k kp F1 Pa) as Cp.
    destruct (ek_component C ord HM H160 true part k) as [[k'|]|], (ek_component C ord HM H160 false part kp) as [[kp'|]|]; cbn [obind]; try contradiction; try exact I. now apply IH.
  Qed.
  Theorem C51_priv_pub_agree k kp p : paired k kp -> ~ In quote p ->
    (forall key pb, ek_derive_priv C ord HM H160 k p = Ret (Some (key, pb)) ->
        length key = 32%nat /\ 0 < of_be key < ord /\ ek_derive_pub C ord HM H160 kp p = Ret (Some (e (of_be key))) /\ pb = ser_comp (e (of_be key))) /\
    (forall Q, ek_derive_pub C ord HM H160 kp p = Ret (Some Q) -> exists key, ek_derive_priv C ord HM H160 k p = Ret (Some (key, ser_comp Q)) /\ Q = e (of_be key)).
  Proof.
    intros Pa Hq. unfold ek_derive_priv, ek_derive_pub, path_parts. assert (ED : ek_depth k = ek_depth kp) by apply Pa. rewrite <- ED. destruct (_ <? _)%nat; [split; intros; discriminate|]. cbn [obind].
    set (parts := skipn (Z.to_nat (ek_depth k)) (split slash p)).
    assert (F : Forall (fun q => hardened q <> Ret true) parts).
    { pose proof (no_quote_parts p Hq) as F. rewrite <- (firstn_skipn (Z.to_nat (ek_depth k)) (split slash p)) in F. apply Forall_app in F. apply F. }
    pose proof (path_paired parts k kp F Pa) as PP.
    destruct (path true parts k) as [[k'|]|], (path false parts kp) as [[kp'|]|]; cbn [obind]; try contradiction; try (split; intros; discriminate).
    destruct PP as [_ [_ [E3 [_ [x [b [Ea [_ [Nx [_ [Px [Lx Ll]]]]]]]]]]]]. rewrite <- E3, Ea. cbn [deref obind new_point_opt]. rewrite new_point_e. destruct (Z.eqb_spec (x mod ord) 0); [contradiction|].
    assert (L32 : (32 <? length (ek_priv k'))%nat = false) by (apply Nat.ltb_ge; exact Ll). rewrite L32.
    assert (OB : of_be (repeat (zb 0) (32 - length (ek_priv k')) ++ ek_priv k') = x) by (rewrite of_be_zeros; exact Px).
    assert (X0 : 0 < x). { pose proof (of_be_range (ek_priv k')). destruct (Z.eq_dec x 0) as [->|]; [rewrite Z.mod_0_l in Nx by (pose proof (cy_n C e L); lia); lia|lia]. }
    split.
    - intros key pb E. assert (key = repeat (zb 0) (32 - length (ek_priv k')) ++ ek_priv k') by congruence. assert (pb = ser_comp (e x)) by congruence. subst key pb. rewrite OB.
      split; [rewrite app_length, repeat_length; lia|]. split; [lia|]. split; reflexivity.
    - intros Q E. assert (Q = e x) by congruence. subst Q. eexists. split; [reflexivity|]. now rewrite OB.
  Qed.

  (** *** derivation along a list of indices: the returned sum is the total offset, the same for every key with the same root and chain code *)
  Lemma hier_eq indices : forall s k a b s' k', ek_pub k = Some (e a) -> ek_ded k = Some (e b) -> a mod ord <> 0 -> b mod ord <> 0 -> 0 <= s < ord -> ek_hier C ord HM H160 indices ord s k = Ret (Some (s', k')) ->
    0 <= s' < ord /\ ek_depth k' = ek_depth k + Z.of_nat (length indices) /\ ek_pub k' = Some (e (a + (s' - s))) /\ ek_ded k' = Some (e (b + (s' - s))) /\ ek_ver k' = ek_ver k /\
    (a + (s' - s)) mod ord <> 0 /\ (b + (s' - s)) mod ord <> 0 /\ of_be (ek_priv k') mod ord = (of_be (ek_priv k) + (s' - s)) mod ord.
  Proof.
    induction indices as [|i r IH]; intros s k a b s' k' Ea Eb Na Nb Rs E; cbn [ek_hier] in E.
    - assert (s' = s) by congruence. assert (k' = k) by congruence. subst s' k'. replace (a + (s - s)) with a by ring. replace (b + (s - s)) with b by ring. replace (of_be (ek_priv k) + (s - s)) with (of_be (ek_priv k)) by ring.
      cbn [length]. repeat (split; [first [assumption|lia|reflexivity]|]). reflexivity.
    - rewrite (child_eq true i false k a b Ea Eb Na Nb) in E. cbn [obind] in E. destruct (_ || _); [discriminate|]. cbv zeta in E. destruct (hd_offset _ _) as [[il cc']|] eqn:HO; [|discriminate].
      destruct (Z.eqb_spec ((a + il) mod ord) 0) as [|Na']; [discriminate|]. destruct (Z.eqb_spec ((b + il) mod ord) 0) as [|Nb']; [discriminate|]. cbn [orb] in E.
      pose proof (cy_n C e L) as Hn. destruct (Z.eqb_spec ord 0); [lia|].
      assert (Ri : 0 <= (il + s) mod ord < ord) by (apply Z.mod_pos_bound; lia).
      match type of E with ek_hier _ _ _ _ _ _ ?s0 ?k0 = _ => specialize (IH s0 k0 (a + il) (b + il) s' k' eq_refl eq_refl Na' Nb' Ri E) end. cbn [ek_depth ek_ver ek_priv] in IH. destruct IH as [Rs' [D [Pp [Dd [V [Np [Nd PV]]]]]]].
      assert (EQ : forall z, (z + il + (s' - (il + s) mod ord)) mod ord = (z + (s' - s)) mod ord).
      { intro z. apply cong_eq; [lia|]. exists ((il + s) / ord). pose proof (Z.div_mod (il + s) ord ltac:(lia)). lia. }
      assert (EE : forall z, e (z + il + (s' - (il + s) mod ord)) = e (z + (s' - s))) by (intro z; rewrite <- (cy_mod C e L), EQ, (cy_mod C e L); reflexivity).
      rewrite !EE in *. rewrite !EQ in *. cbn [length]. split; [exact Rs'|]. split; [lia|]. split; [exact Pp|]. split; [exact Dd|]. split; [exact V|]. split; [exact Np|]. split; [exact Nd|].
      rewrite PV. rewrite of_be_to_be_nonneg by (apply Z.mod_pos_bound; lia). rewrite (Z.add_mod_idemp_l (il + of_be (ek_priv k))) by lia. rewrite <- (EQ (of_be (ek_priv k))). f_equal. ring.
  Qed.
  Theorem C51_hierarchy indices k x b s k' : ek_pub k = Some (e x) -> ek_ded k = Some (e b) -> x mod ord <> 0 -> b mod ord <> 0 -> of_be (ek_priv k) mod ord = x mod ord ->
    ek_hierarchy C ord HM H160 indices ord k = Ret (Some (s, k')) ->
    0 <= s < ord /\ ek_pub k' = Some (e (x + s)) /\ ek_ded k' = Some (e (b + s)) /\ of_be (ek_priv k') mod ord = (x + s) mod ord /\ ek_depth k' = ek_depth k + Z.of_nat (length indices).
  Proof.
    intros Ea Eb Na Nb Px E. pose proof (cy_n C e L) as Hn. destruct (hier_eq indices 0 k x b s k' Ea Eb Na Nb ltac:(lia) E) as [R [D [P1 [P2 [_ [_ [_ PV]]]]]]]. rewrite Z.sub_0_r in *.
    split; [exact R|]. split; [exact P1|]. split; [exact P2|]. split; [|exact D]. rewrite PV. rewrite <- Z.add_mod_idemp_l, Px, Z.add_mod_idemp_l by lia. reflexivity.
  Qed.
  Theorem C51_same_offset indices : forall s k1 k2 a1 a2 b s1 k1' s2 k2', ek_pub k1 = Some (e a1) -> ek_pub k2 = Some (e a2) -> ek_ded k1 = Some (e b) -> ek_ded k2 = Some (e b) -> a1 mod ord <> 0 -> a2 mod ord <> 0 -> b mod ord <> 0 ->
    ek_cc k1 = ek_cc k2 -> ek_hier C ord HM H160 indices ord s k1 = Ret (Some (s1, k1')) -> ek_hier C ord HM H160 indices ord s k2 = Ret (Some (s2, k2')) -> s1 = s2 /\ ek_ded k1' = ek_ded k2' /\ ek_cc k1' = ek_cc k2'.
  Proof.
    induction indices as [|i r IH]; intros s k1 k2 a1 a2 b s1 k1' s2 k2' A1 A2 B1 B2 N1 N2 Nb Ec E1 E2; cbn [ek_hier] in E1, E2.
    - assert (s1 = s) by congruence. assert (s2 = s) by congruence. assert (k1' = k1) by congruence. assert (k2' = k2) by congruence. subst. split; [reflexivity|]. split; congruence.
    - rewrite (child_eq true i false k1 a1 b A1 B1 N1 Nb) in E1. rewrite (child_eq true i false k2 a2 b A2 B2 N2 Nb) in E2. cbn [obind] in E1, E2. destruct (_ || _); [discriminate|]. destruct (_ || _) in E2; [discriminate|].
      cbv zeta in E1, E2. rewrite <- Ec in E2. destruct (hd_offset _ _) as [[il cc']|]; [|discriminate].
      destruct (Z.eqb_spec ((a1 + il) mod ord) 0) as [|M1]; [discriminate|]. destruct (Z.eqb_spec ((a2 + il) mod ord) 0) as [|M2]; [discriminate|]. destruct (Z.eqb_spec ((b + il) mod ord) 0) as [|Mb]; [discriminate|]. cbn [orb] in E1, E2.
      destruct (ord =? 0); [discriminate|]. match type of E1 with ek_hier _ _ _ _ _ _ ?s0 ?q1 = _ => match type of E2 with ek_hier _ _ _ _ _ _ _ ?q2 = _ => exact (IH s0 q1 q2 (a1 + il) (a2 + il) (b + il) _ _ _ _ eq_refl eq_refl eq_refl eq_refl M1 M2 Mb eq_refl E1 E2) end end.
  Qed.
  (** *** resuming: a child derived for the next component of a path, given the same path, ends where its parent ends *)
  Lemma component_depth private part k k' : ek_component C ord HM H160 private part k = Ret (Some k') -> ek_depth k' = ek_depth k + 1.
  Proof.
    unfold ek_component. destruct (hardened part) as [h|]; cbn [obind]; [|discriminate]. destruct (negb private && h); [discriminate|].
    destruct (atoi _) as [i|]; [|discriminate]. destruct (i <? 0); [discriminate|]. unfold ek_child.
    repeat match goal with
      | |- context [if ?c then _ else _] => destruct c
      | |- context [match new_point_opt C ?x with _ => _ end] => destruct (new_point_opt C x)
      | |- context [deref (base_mul C ?x)] => destruct (deref (base_mul C x)); cbn [obind]
      | |- context [match pt_add C ?x ?y with _ => _ end] => destruct (pt_add C x y)
      end; cbn [obind]; intro E; try discriminate; inversion E; reflexivity.
  Qed.
  Lemma skipn_nth_error {A} (l : list A) d x : nth_error l d = Some x -> skipn d l = x :: skipn (S d) l.
  Proof. revert l; induction d as [|d IH]; intros [|a l] E; try discriminate; cbn in *; [congruence|]. apply IH. exact E. Qed.
  Lemma path_parts_step k k' p part : 0 <= ek_depth k -> ek_depth k' = ek_depth k + 1 -> nth_error (split slash p) (Z.to_nat (ek_depth k)) = Some part ->
    exists r, path_parts k p = Ret (part :: r) /\ path_parts k' p = Ret r.
  Proof.
    intros D0 D1 E. exists (skipn (S (Z.to_nat (ek_depth k))) (split slash p)). unfold path_parts. rewrite D1. replace (Z.to_nat (ek_depth k + 1)) with (S (Z.to_nat (ek_depth k))) by lia.
    assert (Ln : (Z.to_nat (ek_depth k) < length (split slash p))%nat) by (apply nth_error_Some; congruence).
    assert (L1 : (length (split slash p) <? Z.to_nat (ek_depth k))%nat = false) by (apply Nat.ltb_ge; lia). assert (L2 : (length (split slash p) <? S (Z.to_nat (ek_depth k)))%nat = false) by (apply Nat.ltb_ge; lia).
    rewrite L1, L2. split; [|reflexivity]. f_equal. now apply skipn_nth_error.
  Qed.
  Theorem C51_resume k k' p part : 0 <= ek_depth k -> nth_error (split slash p) (Z.to_nat (ek_depth k)) = Some part ->
    (ek_component C ord HM H160 true part k = Ret (Some k') -> ek_derive_priv C ord HM H160 k p = ek_derive_priv C ord HM H160 k' p) /\
    (ek_component C ord HM H160 false part k = Ret (Some k') -> ek_derive_pub C ord HM H160 k p = ek_derive_pub C ord HM H160 k' p).
  Proof.
    intros D0 E. split; intro Cp; destruct (path_parts_step k k' p part D0 (component_depth _ _ _ _ Cp) E) as [r [A B]];
      unfold ek_derive_priv, ek_derive_pub; rewrite A, B; cbn [obind ek_path]; rewrite Cp; reflexivity.
  Qed.
  (** a key whose depth equals the number of components is returned itself *)
  Theorem C51_end_of_path k p x : 0 <= ek_depth k -> Z.of_nat (length (split slash p)) = ek_depth k -> ek_pub k = Some (e x) -> x mod ord <> 0 ->
    ek_derive_pub C ord HM H160 k p = Ret (Some (e x)) /\
    (length (ek_priv k) = 32%nat -> ek_derive_priv C ord HM H160 k p = Ret (Some (ek_priv k, ser_comp (e x)))).
  Proof.
    intros D0 D Ex Nx. unfold ek_derive_priv, ek_derive_pub, path_parts. rewrite <- D, Nat2Z.id, Nat.ltb_irrefl, skipn_all. cbn [obind ek_path]. rewrite Ex. cbn [new_point_opt deref obind].
    split. { rewrite new_point_e. destruct (Z.eqb_spec (x mod ord) 0); [contradiction|reflexivity]. }
    intros ->. reflexivity.
  Qed.
  (** ** what fails *)
  (** deriving a private key from a key without private part does not fail: the child claims a secret that does not belong to its public key *)
  Theorem C51_public_only_refuted k a b index il k' : ek_pub k = Some (e a) -> ek_ded k = Some (e b) -> a mod ord <> 0 -> b mod ord <> 0 -> ek_priv k = [] -> child true index false k = Ret (Some (il, k')) ->
    of_be (ek_priv k') = il /\ ek_pub k' <> Some (e (of_be (ek_priv k'))).
  Proof.
    intros Ea Eb Na Nb Ep E. rewrite (child_eq true index false k a b Ea Eb Na Nb) in E. destruct (_ || _); [discriminate|]. cbv zeta in E. unfold hd_offset in E. set (x := of_be (firstn 32 _)) in E. assert (0 <= x) by apply of_be_range.
    pose proof (cy_n C e L) as Hn. destruct (Z.leb_spec ord x); [discriminate|]. cbn [orb] in E. destruct (x =? 0); [discriminate|]. destruct (_ || _) in E; [discriminate|]. destruct (_ || _) in E; [discriminate|].
    match type of E with Ret (Some (_, ?t)) = _ => assert (K : k' = t) by congruence end. assert (il = x) by congruence. subst k' il. cbn [ek_priv ek_pub]. rewrite Ep. change (of_be []) with 0. rewrite Z.add_0_r.
    rewrite Z.mod_small by lia. rewrite of_be_to_be_nonneg by lia. split; [reflexivity|]. intro X. assert (X' : e (a + x) = e x) by congruence. apply (cy_inj C e L) in X'. apply Na. rewrite <- (Z.mod_0_l ord) by lia.
    apply cong_eq; [lia|]. apply cong_eq in X'; [|lia]. destruct X' as [c Hc]. exists c. lia.
  Qed.
  (** a path with fewer components than the depth of the key panics *)
  Theorem C51_short_path_refuted k p : Z.of_nat (length (split slash p)) < ek_depth k -> ek_derive_priv C ord HM H160 k p = Panic /\ ek_derive_pub C ord HM H160 k p = Panic.
  Proof. intro H. unfold ek_derive_priv, ek_derive_pub, path_parts. assert (X : (length (split slash p) <? Z.to_nat (ek_depth k))%nat = true) by (apply Nat.ltb_lt; lia). rewrite X. split; reflexivity. Qed.
  (** BIP-32 hashes the private key as 32 bytes for hardened children; a derived key below 2^248 is hashed shorter *)
  Theorem C51_hardened_padding_refuted k a b index il k' index' : ek_pub k = Some (e a) -> ek_ded k = Some (e b) -> a mod ord <> 0 -> b mod ord <> 0 -> child true index false k = Ret (Some (il, k')) ->
    of_be (ek_priv k') < 2 ^ 248 -> (length (zb 0 :: ek_priv k' ++ u32be index') < 37)%nat /\ zb 0 :: ek_priv k' ++ u32be index' <> zb 0 :: be_fixed 32 (of_be (ek_priv k')) ++ u32be index'.
  Proof.
    intros Ea Eb Na Nb E Lt. rewrite (child_eq true index false k a b Ea Eb Na Nb) in E. destruct (_ || _); [discriminate|]. cbv zeta in E. destruct (hd_offset _ _) as [[x cc']|]; [|discriminate]. destruct (_ || _) in E; [discriminate|].
    match type of E with Ret (Some (_, ?t)) = _ => assert (K : k' = t) by congruence end. subst k'. cbn [ek_priv] in *. pose proof (cy_n C e L) as Hn. set (v := (x + of_be (ek_priv k)) mod ord) in *. assert (Rv : 0 <= v < ord) by (apply Z.mod_pos_bound; lia).
    rewrite of_be_to_be_nonneg in Lt by lia. pose proof (be_fixed_pad 31 v (r31 v ltac:(lia))) as BP. apply (f_equal (@length _)) in BP. rewrite be_fixed_length, app_length, repeat_length in BP.
    assert (L31 : (length (to_be v) <= 31)%nat) by lia. unfold u32be. split; [cbn [length]; rewrite app_length, be_fixed_length; lia|]. intro X. apply (f_equal (@length _)) in X. cbn [length] in X. rewrite !app_length, !be_fixed_length in X. lia.
  Qed.
End C51.

(** a cyclic group of 13 elements written as points *)
Definition toy_e (k : Z) : point := if k mod 13 =? 0 then (0, 0) else (k mod 13, k mod 13 + 20).
Definition toy_cyclic : curve :=
  {| c_on := fun x y => (1 <=? x) && (x <? 13) && (y =? x + 20); c_add := fun p q => toy_e (px p + px q); c_smul := fun p k => toy_e (px p * k); c_bmul := toy_e; c_g := toy_e 1; c_n := 13; c_id := (0, 0);
     c_canon := fun p => True |}.
Lemma toy_cyclic_laws : cyclic_laws toy_cyclic toy_e.
Proof.
  assert (R : forall k, 0 <= k mod 13 < 13) by (intro; apply Z.mod_pos_bound; lia).
  constructor; cbn [toy_cyclic c_n c_bmul c_add].
  - lia.
  - intro k. unfold toy_e. now rewrite Z.mod_mod by lia.
  - intro k. unfold on, toy_cyclic, toy_e, px, py. cbn [c_on]. specialize (R k). destruct (Z.eqb_spec (k mod 13) 0) as [E|E]; cbn [fst snd]; [reflexivity|]. cbn [negb]. rewrite Z.eqb_refl, !andb_true_iff, Z.leb_le, Z.ltb_lt. lia.
  - intros j k. unfold toy_e. pose proof (R j). pose proof (R k). destruct (Z.eqb_spec (j mod 13) 0) as [E|E], (Z.eqb_spec (k mod 13) 0) as [E'|E']; intro X; inversion X; lia.
  - reflexivity.
  - intros j k Nj Nk. unfold toy_e at 2 3. destruct (Z.eqb_spec (j mod 13) 0); [contradiction|]. destruct (Z.eqb_spec (k mod 13) 0); [contradiction|]. unfold px. cbn [fst]. unfold toy_e. now rewrite <- Z.add_mod by lia.
  - intros k N. unfold toy_e. destruct (Z.eqb_spec (k mod 13) 0); [contradiction|]. unfold px. cbn [fst]. specialize (R k). lia.
Qed.
Definition toy_hm (cc data : bytes) : bytes := repeat (zb 0) 31 ++ [zb 3] ++ repeat (zb 7) 32.
Definition toy_h160 (b : bytes) : bytes := repeat (zb 5) 20.
Theorem C51_example : cyclic_laws toy_cyclic toy_e /\ let k := ek_new toy_h160 [zb 4] (toy_e 4) (toy_e 2) 0 0 (repeat (zb 1) 32) in paired toy_cyclic toy_e k k /\
  ek_derive_priv toy_cyclic 13 toy_hm toy_h160 k (str "0/1") = Ret (Some (repeat (zb 0) 31 ++ [zb 10], ser_comp (toy_e 10))) /\
  ek_derive_pub toy_cyclic 13 toy_hm toy_h160 k (str "0/1") = Ret (Some (toy_e 10)) /\
  (exists k', ek_hierarchy toy_cyclic 13 toy_hm toy_h160 [0; 1] 13 k = Ret (Some (6, k'))).
Proof.
  split; [exact toy_cyclic_laws|]. cbv zeta. split.
  - unfold paired. repeat (split; [reflexivity|]). exists 4, 2. repeat (split; [first [reflexivity|discriminate]|]). cbn. lia.
  - split; [reflexivity|]. split; [reflexivity|]. eexists. reflexivity.
Qed.
