(** OnsignEnc.v -- C34: the 32-byte scalar and point encodings of onsign/utils.go; what is assumed of the Edwards library;
    a small Edwards library meeting it. *)
From Verif Require Import Base BigInt Curve Onsign.
From Coq Require Import Znumtheory.

(** ** What theorems assume of the Edwards library (agl/ed25519, decred edwards) *)
Record ed_laws (C : curve) (D : edlib) : Prop := {
  el_p : 2 < ed_p D < 2 ^ 255;
  el_coord : forall P, c_canon C P -> 0 <= px P < ed_p D /\ 0 <= py P < ed_p D;
  el_dec : forall P, c_canon C P -> ed_dec D (ge_bytes P) = Some P;      (* decompression inverts compression *)
  el_dec_canon : forall b P, ed_dec D b = Some P -> c_canon C P;
  el_neg_canon : forall P, c_canon C P -> c_canon C (ed_neg D P);
  el_neg : forall P, c_canon C P -> c_add C P (ed_neg D P) = c_id C }.

(** ** Facts *)
Lemma pow256_32 : 256 ^ Z.of_nat 32 = 2 ^ 256. Proof. reflexivity. Qed.
Lemma rev_be_fixed k z : rev (be_fixed k z) = le_fixed k z.
Proof. unfold be_fixed. apply rev_involutive. Qed.
Lemma firstn_all' {A} (l : list A) k : length l = k -> firstn k l = l.
Proof. intros <-. apply firstn_all. Qed.

Lemma big_enc_len z : length (big_enc z) = 32%nat.
Proof. unfold big_enc. rewrite rev_length, firstn_length, app_length, repeat_length. lia. Qed.
Lemma big_enc_small z : 0 <= z < 2 ^ 256 -> big_enc z = le_fixed 32 z.
Proof.
  intro H. unfold big_enc. rewrite <- pow256_32 in H.
  assert (L : (length (to_be z) <= 32)%nat) by (apply to_be_length; rewrite Z.abs_eq by lia; lia).
  rewrite firstn_all' by (rewrite app_length, repeat_length; lia).
  rewrite <- (rev_be_fixed 32 z). f_equal. rewrite (be_fixed_pad 32 z H). reflexivity.
Qed.
Lemma enc_to_big_le b : enc_to_big b = of_le b.
Proof. unfold enc_to_big. apply of_be_rev. Qed.
Lemma enc_to_big_range b : length b = 32%nat -> 0 <= enc_to_big b < 2 ^ 256.
Proof. intro L. rewrite enc_to_big_le. pose proof (of_le_range b) as R. rewrite L in R. exact R. Qed.

Lemma of_le_ge_bytes P : 0 <= py P < 2 ^ 255 -> of_le (ge_bytes P) = py P + (if Z.odd (px P) then 2 ^ 255 else 0).
Proof.
  intro H. unfold ge_bytes. apply of_le_le_fixed_small. rewrite pow256_32.
  change (2 ^ 256) with (2 ^ 255 + 2 ^ 255). destruct (Z.odd (px P)); lia.
Qed.
Lemma ge_bytes_len P : length (ge_bytes P) = 32%nat. Proof. apply le_fixed_length. Qed.

Lemma point_enc_canon D P : 2 < ed_p D < 2 ^ 255 -> 0 <= px P < ed_p D -> 0 <= py P < ed_p D -> point_enc D P = ge_bytes P.
Proof.
  intros Hp Hx Hy. assert (B : 2 ^ 255 < 2 ^ 256) by reflexivity. unfold point_enc, set_sign, ge_bytes, fe_of.
  rewrite !big_enc_small by lia. rewrite !of_le_le_fixed_small by (rewrite pow256_32; lia).
  rewrite (Z.mod_small (px P) (2 ^ 255)) by lia. rewrite (Z.mod_small (px P)) by lia. rewrite (Z.mod_small (py P)) by lia. reflexivity.
Qed.

(** ** C34 *)
(** integers below 2^256 survive the round trip, and the 32 bytes are their little-endian digits *)
Theorem C34_scalar_roundtrip z : 0 <= z < 2 ^ 256 ->
  enc_to_big (big_enc z) = z /\ length (big_enc z) = 32%nat /\ of_le (big_enc z) = z.
Proof.
  intro H.
  assert (E : of_le (big_enc z) = z) by (rewrite (big_enc_small z H); apply of_le_le_fixed_small; rewrite pow256_32; exact H).
  split; [rewrite enc_to_big_le; exact E|]. split; [apply big_enc_len|exact E].
Qed.
(** and every 32-byte string is the encoding of the integer read from it *)
Theorem C34_bytes_roundtrip b : length b = 32%nat -> big_enc (enc_to_big b) = b.
Proof.
  intro L. rewrite (big_enc_small _ (enc_to_big_range b L)), enc_to_big_le. rewrite <- L at 1. apply le_fixed_of_le.
Qed.
(** the limit 2^256 is needed: larger integers are silently cut to their 32 most significant bytes *)
Theorem C34_long_integers_truncated_refuted : exists a b, a <> b /\ 0 <= a /\ 0 <= b /\ big_enc a = big_enc b /\ enc_to_big (big_enc a) <> a.
Proof. exists (2 ^ 256), (2 ^ 248). split; [discriminate|]. split; [discriminate|]. split; [discriminate|].
  split; [vm_compute; reflexivity|vm_compute; discriminate]. Qed.
(** the point encoding is y with the parity of x in the top bit, and it determines the point *)
Theorem C34_point_encoding C D P : ed_laws C D -> c_canon C P ->
  of_le (point_enc D P) = py P + 2 ^ 255 * (px P mod 2) /\ length (point_enc D P) = 32%nat.
Proof.
  intros L H. destruct (el_coord C D L P H) as [Hx Hy]. pose proof (el_p C D L) as Hp.
  rewrite point_enc_canon by auto. split; [|apply ge_bytes_len]. rewrite of_le_ge_bytes by lia. rewrite Zmod_odd.
  destruct (Z.odd (px P)); lia.
Qed.
Theorem C34_point_encoding_injective C D P Q : ed_laws C D -> c_canon C P -> c_canon C Q ->
  point_enc D P = point_enc D Q -> P = Q.
Proof.
  intros L HP HQ E. destruct (el_coord C D L P HP) as [Px Py]. destruct (el_coord C D L Q HQ) as [Qx Qy]. pose proof (el_p C D L) as Hp.
  rewrite !point_enc_canon in E by auto. apply (f_equal (ed_dec D)) in E. rewrite !(el_dec C D L) in E by auto. congruence.
Qed.
(** decoding the encoding gives the point back *)
Theorem C34_point_roundtrip C D P : ed_laws C D -> c_canon C P -> ed_dec D (point_enc D P) = Some P.
Proof.
  intros L H. destruct (el_coord C D L P H) as [Hx Hy]. rewrite point_enc_canon by (auto; apply L). apply (el_dec C D L P H).
Qed.

(** ** A small group with such an encoding: Z/88 again, the point of discrete value k is (2 + k mod 2, 1 + k / 2) *)
Definition tv (p : point) : Z := px p - 2 + 2 * (py p - 1).
Definition tp (k : Z) : point := (2 + (k mod 88) mod 2, 1 + (k mod 88) / 2).
Definition ton (x y : Z) : bool := (2 <=? x) && (x <=? 3) && (1 <=? y) && (y <=? 44).
Definition toy2 : curve := {|
  c_on := ton;
  c_add := fun p q => tp (tv p + tv q);
  c_smul := fun p k => tp (k * tv p);
  c_bmul := fun k => tp (k * 8);
  c_g := tp 8;
  c_n := 11;
  c_id := tp 0;
  c_canon := fun p => ton (px p) (py p) = true |}.
Lemma ton_spec x y : ton x y = true <-> 2 <= x <= 3 /\ 1 <= y <= 44. Proof. unfold ton. lia. Qed.
Lemma tp_canon k : c_canon toy2 (tp k).
Proof.
  cbn [c_canon toy2]. apply ton_spec. unfold tp, px, py. cbn [fst snd]. pose proof (Z.mod_pos_bound k 88 ltac:(lia)).
  pose proof (Z.mod_pos_bound (k mod 88) 2 ltac:(lia)). pose proof (Z.div_mod (k mod 88) 2 ltac:(lia)). lia.
Qed.
Lemma tv_tp k : tv (tp k) = k mod 88.
Proof. unfold tv, tp, px, py. cbn [fst snd]. pose proof (Z.div_mod (k mod 88) 2 ltac:(lia)). lia. Qed.
Lemma tp_tv p : ton (px p) (py p) = true -> tp (tv p) = p.
Proof.
  intro H. apply ton_spec in H. destruct p as [x y]. unfold tp, tv, px, py in *. cbn [fst snd] in *.
  rewrite (Z.mod_small (x - 2 + 2 * (y - 1)) 88) by lia.
  assert (E1 : (x - 2 + 2 * (y - 1)) mod 2 = x - 2). { replace (x - 2 + 2 * (y - 1)) with (x - 2 + (y - 1) * 2) by lia. rewrite Z_mod_plus_full. apply Z.mod_small. lia. }
  assert (E2 : (x - 2 + 2 * (y - 1)) / 2 = y - 1). { pose proof (Z.div_mod (x - 2 + 2 * (y - 1)) 2 ltac:(lia)). lia. }
  rewrite E1, E2. f_equal; lia.
Qed.
Lemma tp_eq a b : a mod 88 = b mod 88 -> tp a = tp b. Proof. unfold tp. intros ->. reflexivity. Qed.
From Verif Require Import ToyCurve.
Lemma toy2_laws : curve_laws toy2.
Proof.
  constructor; intros; try (apply tp_canon).
  - exact prime_11.
  - cbn. split; [lia|reflexivity].
  - exact H.
  - cbn [c_canon toy2] in H. apply ton_spec in H. assert (88 < 2 ^ 256) by reflexivity. lia.
  - cbn [c_add toy2]. rewrite Z.add_comm. reflexivity.
  - cbn [c_add toy2]. rewrite !tv_tp. apply tp_eq. rewrite Zplus_mod_idemp_l, Zplus_mod_idemp_r. f_equal. lia.
  - cbn [c_add c_id toy2]. change (tv (tp 0)) with 0. apply tp_tv. exact H.
  - exists (tp (- tv p)). split; [apply tp_canon|]. cbn [c_add c_id toy2]. rewrite tv_tp. apply tp_eq. rewrite Zplus_mod_idemp_r. f_equal. lia.
  - reflexivity.
  - cbn [c_smul c_add toy2]. rewrite tv_tp. apply tp_eq. rewrite Zplus_mod_idemp_r. f_equal. lia.
  - cbn [c_bmul c_smul c_g toy2]. rewrite tv_tp. reflexivity.
  - reflexivity.
  - discriminate.
  - cbn [c_smul c_n c_id toy2]. apply tp_eq. change (8 * 11) with 88. rewrite Z.mul_comm. rewrite Z_mod_mult. reflexivity.
Qed.
Definition toyD : edlib := {|
  ed_p := 53;
  ed_neg := fun p => tp (- tv p);
  ed_dec := fun b => let z := of_le b in
     let x := (if 2 ^ 255 <=? z then 3 else 2) in let y := z mod 2 ^ 255 in
     if ton x y then Some (x, y) else None |}.
Lemma toyD_laws : ed_laws toy2 toyD.
Proof.
  constructor.
  - cbn. split; [lia|reflexivity].
  - intros P H. cbn [c_canon toy2] in H. apply ton_spec in H. cbn [ed_p toyD]. lia.
  - intros [x y] H. pose proof H as H0. cbn [c_canon toy2] in H. apply ton_spec in H. unfold px, py in H. cbn [fst snd] in H.
    assert (B : 88 < 2 ^ 255) by reflexivity. cbn [ed_dec toyD]. rewrite of_le_ge_bytes by (unfold py; cbn [snd]; lia). unfold px, py. cbn [fst snd].
    assert (X : x = 2 \/ x = 3) by lia. cbv zeta. destruct X as [->| ->].
    + change (Z.odd 2) with false. cbv iota. rewrite Z.add_0_r, Z.mod_small by lia. destruct (Z.leb_spec (2 ^ 255) y); [lia|]. cbn [c_canon toy2 px py fst snd] in H0. rewrite H0. reflexivity.
    + change (Z.odd 3) with true. cbv iota. destruct (Z.leb_spec (2 ^ 255) (y + 2 ^ 255)); [|lia].
      replace ((y + 2 ^ 255) mod 2 ^ 255) with y; [cbn [c_canon toy2 px py fst snd] in H0; rewrite H0; reflexivity|].
      rewrite <- Zplus_mod_idemp_r, Z_mod_same_full, Z.add_0_r, Z.mod_small by lia. reflexivity.
  - intros b P. cbn [ed_dec toyD]. destruct (ton _ _) eqn:E; [|discriminate]. intro Q. injection Q as <-. exact E.
  - intros P _. apply tp_canon.
  - intros P _. cbn [c_add c_id ed_neg toy2 toyD]. rewrite tv_tp. apply tp_eq. rewrite Zplus_mod_idemp_r. f_equal. lia.
Qed.
(** the hypotheses of the point theorems are met by a library with 88 points *)
Theorem C34_example : ed_laws toy2 toyD /\ curve_laws toy2 /\ c_canon toy2 (c_g toy2) /\
  point_enc toyD (c_g toy2) <> point_enc toyD (c_id toy2).
Proof. split; [exact toyD_laws|]. split; [exact toy2_laws|]. split; [reflexivity|vm_compute; discriminate]. Qed.
