(** PropCipher.v -- C62: encryption to a secp256k1 public key (btcec/v1/ciphering.go). *)
From Verif Require Import Base BigInt NumTh AbZ Keygen Xor SecpField SecpPrimes Secp256k1 SecpCurve PropSecp SecpMul SecpZero PropSecpCurve Ecdsa PropPubKey PropEcdsa PropDer Cipher.
Local Notation N := n256k1.

Lemma beq_ok a b : beq a b = true <-> a = b. Proof. unfold beq. destruct (list_eq_dec _ a b); split; congruence. Qed.
Lemma shared_eq d A : 0 <= d -> shared d (aff A) = to_be (fst (aff (zm d A))). Proof. intro D. unfold shared. now rewrite sm. Qed.
(** ECDH: both sides compute the same string, whatever the numbers *)
Theorem C62_agreement T a b qa qb : table_ok T -> 0 <= a -> 0 <= b -> s_base_mul T (to_be a) = Some qa -> s_base_mul T (to_be b) = Some qb -> shared a qb = shared b qa.
Proof.
  intros HT A B EA' EB. rewrite (bm T a HT A) in EA'. rewrite (bm T b HT B) in EB. assert (qa = aff (zm a G)) as -> by congruence. assert (qb = aff (zm b G)) as -> by congruence.
  rewrite !shared_eq by assumption. rewrite <- !ZMM. now rewrite Z.mul_comm.
Qed.
(** ... but it is not of fixed length: leading zero bytes of the coordinate are dropped *)
Theorem C62_secret_length d A : 0 <= d -> (length (shared d (aff A)) <= 32)%nat /\ of_be (shared d (aff A)) = fst (aff (zm d A)).
Proof.
  intro D. rewrite shared_eq by exact D. destruct (ez_dec (zm d A)) as [->|NZ]; [cbn; split; [lia|reflexivity]|]. destruct (aff (zm d A)) as [x y] eqn:E. destruct (aff_rep _ x y NZ E) as (X & _). cbn [fst].
  split; [apply to_be_length; rewrite Z.abs_eq by lia; rewrite p256; pose proof p_lt; lia|apply of_be_to_be_nonneg; lia].
Qed.
(** ** padding *)
Lemma pad_n (m : bytes) : (1 <= 16 - length m mod 16 <= 16)%nat. Proof. pose proof (Nat.mod_upper_bound (length m) 16 ltac:(lia)). lia. Qed.
Lemma add_pad_len m : length (add_pad m) = (16 * (length m / 16 + 1))%nat.
Proof. unfold add_pad. rewrite app_length, repeat_length. pose proof (Nat.div_mod (length m) 16 ltac:(lia)). pose proof (pad_n m). lia. Qed.
Lemma last_repeat {A} (x : A) n l : (1 <= n)%nat -> idx (l ++ repeat x n) (Z.of_nat (length (l ++ repeat x n)) - 1) = Ret x.
Proof.
  intro H. rewrite app_length, repeat_length. replace (Z.of_nat (length l + n) - 1) with (Z.of_nat (length l) + Z.of_nat (n - 1)) by lia. rewrite (idx_app l _ _ _ eq_refl) by lia.
  unfold idx. replace (0 <=? Z.of_nat (n - 1)) with true by lia. rewrite Nat2Z.id. rewrite (nth_error_nth' _ x) by (rewrite repeat_length; lia). now rewrite nth_repeat.
Qed.
Theorem C62_padding m : remove_pad (add_pad m) = Ret (Some m) /\ length (add_pad m) = (16 * (length m / 16 + 1))%nat.
Proof.
  split; [|apply add_pad_len]. pose proof (pad_n m) as PN. pose proof (add_pad_len m) as LP. unfold remove_pad. cbv zeta. set (n := (16 - length m mod 16)%nat) in *.
  assert (I : idx (add_pad m) (Z.of_nat (length (add_pad m)) - 1) = Ret (zb (Z.of_nat n))) by (apply (last_repeat (zb (Z.of_nat n)) n m); lia). rewrite I. cbn [obind]. rewrite bz_zb_small by lia. rewrite LP. replace (_ || _) with false by (symmetry; apply orb_false_intro; lia).
  unfold add_pad. fold n. rewrite (slice_to m _) ; [reflexivity|]. unfold add_pad in LP. fold n in LP. rewrite app_length, repeat_length in LP. lia.
Qed.
(** the padding is not checked: only the last byte is read, and 0 counts as no padding *)
Theorem C62_padding_unchecked_refuted p b : length p = 15%nat -> (bz b <= 16 -> remove_pad (p ++ [b]) = Ret (Some (firstn (16 - Z.to_nat (bz b)) (p ++ [b])))) /\ remove_pad (p ++ [zb 0]) = Ret (Some (p ++ [zb 0])).
Proof.
  intro L. assert (R : forall b, bz b <= 16 -> remove_pad (p ++ [b]) = Ret (Some (firstn (16 - Z.to_nat (bz b)) (p ++ [b])))).
  { clear b. intros b B. pose proof (bz_range b). unfold remove_pad. cbv zeta. assert (I : idx (p ++ [b]) (Z.of_nat (length (p ++ [b])) - 1) = Ret b) by (apply (last_repeat b 1 p); lia). rewrite I. cbn [obind]. assert (LL : length (p ++ [b]) = 16%nat) by (rewrite app_length, L; reflexivity). rewrite LL.
    replace (_ || _) with false by (symmetry; apply orb_false_intro; lia). unfold slice. rewrite LL. replace (_ && _) with true by lia. cbn [obind]. rewrite skipn_O. do 3 f_equal. lia. }
  split; [apply R|]. rewrite (R (zb 0)) by discriminate. change (bz (zb 0)) with 0. rewrite firstn_all2; [reflexivity|]. rewrite app_length, L. cbn. lia.
Qed.

Section C62.
  Variable H512 : bytes -> bytes.
  Variable HM : bytes -> bytes -> bytes.
  Variables aes_e aes_d : bytes -> bytes -> bytes.
  Hypothesis AES_len : forall k b, length b = 16%nat -> length (aes_e k b) = 16%nat /\ length (aes_d k b) = 16%nat.
  Hypothesis AES_inv : forall k b, length b = 16%nat -> aes_d k (aes_e k b) = b.
  Hypothesis HM_len : forall k b, length (HM k b) = 32%nat.
  Variable T : table.
  Hypothesis HT : table_ok T.
  Local Notation encrypt := (encrypt H512 HM aes_e T).
  Local Notation decrypt := (decrypt H512 HM aes_d).

  Lemma xor16 a b : length a = 16%nat -> length b = 16%nat -> length (xor a b) = 16%nat. Proof. intros A B. rewrite xor_length, A, B. reflexivity. Qed.
  Lemma fn16 n (p : bytes) : length p = (16 * S n)%nat -> length (firstn 16 p) = 16%nat /\ length (skipn 16 p) = (16 * n)%nat.
  Proof. intro L. rewrite firstn_length, skipn_length. lia. Qed.
  Lemma cbc_enc_len n : forall k iv p, length iv = 16%nat -> length p = (16 * n)%nat -> length (cbc_enc aes_e n k iv p) = (16 * n)%nat.
  Proof.
    induction n as [|n IH]; intros k iv p I L; [reflexivity|]. cbn [cbc_enc]. destruct (fn16 n p L) as [L1 L2]. pose proof (proj1 (AES_len k _ (xor16 _ _ L1 I))) as LE. rewrite app_length, LE, (IH _ _ _ LE L2). lia.
  Qed.
  Lemma cbc_dec_len n : forall k iv p, length iv = 16%nat -> length p = (16 * n)%nat -> length (cbc_dec aes_d n k iv p) = (16 * n)%nat.
  Proof.
    induction n as [|n IH]; intros k iv p I L; [reflexivity|]. cbn [cbc_dec]. destruct (fn16 n p L) as [L1 L2]. pose proof (proj2 (AES_len k _ L1)) as LE. rewrite app_length, (xor16 _ _ LE I), (IH _ _ _ L1 L2). lia.
  Qed.
  Lemma cbc_inv n : forall k iv p, length iv = 16%nat -> length p = (16 * n)%nat -> cbc_dec aes_d n k iv (cbc_enc aes_e n k iv p) = p.
  Proof.
    induction n as [|n IH]; intros k iv p I L; [destruct p; [reflexivity|discriminate L]|]. cbn [cbc_enc cbc_dec]. destruct (fn16 n p L) as [L1 L2]. pose proof (proj1 (AES_len k _ (xor16 _ _ L1 I))) as LE.
    set (c := aes_e k (xor (firstn 16 p) iv)) in *. rewrite firstn_app, skipn_app, LE, Nat.sub_diag, firstn_O, skipn_O, app_nil_r, firstn_all2, skipn_all2, app_nil_l by lia.
    rewrite (IH _ _ _ LE L2). unfold c. rewrite AES_inv by (apply xor16; assumption). rewrite xor_cancel by lia. apply firstn_skipn.
  Qed.
  Lemma div16 (p : bytes) n : length p = (16 * n)%nat -> (length p mod 16 = 0 /\ length p / 16 = n)%nat.
  Proof. intros ->. rewrite Nat.mul_comm. split; [apply Nat.mod_mul; lia|apply Nat.div_mul; lia]. Qed.
  Lemma crypt_enc_ok k iv p n : length p = (16 * n)%nat -> crypt_enc aes_e k iv p = Ret (cbc_enc aes_e n k iv p).
  Proof. intro L. unfold crypt_enc. destruct (div16 p n L) as [-> ->]. reflexivity. Qed.
  Lemma crypt_dec_ok k iv p n : length p = (16 * n)%nat -> crypt_dec aes_d k iv p = Ret (cbc_dec aes_d n k iv p).
  Proof. intro L. unfold crypt_dec. destruct (div16 p n L) as [-> ->]. reflexivity. Qed.
  (** padding removal on a text of at least one block *)
  Lemma remove_ok p n : length p = (16 * S n)%nat -> exists b, nth_error p (16 * n + 15) = Some b /\ remove_pad p = Ret (if bz b <=? 16 then Some (firstn (16 * S n - Z.to_nat (bz b)) p) else None).
  Proof.
    intro L. destruct (nth_error p (16 * n + 15)) as [b|] eqn:E; [|apply nth_error_None in E; lia]. exists b. split; [reflexivity|]. unfold remove_pad.
    assert (I : idx p (Z.of_nat (length p) - 1) = Ret b). { unfold idx. replace (0 <=? _) with true by lia. replace (Z.to_nat (Z.of_nat (length p) - 1)) with (16 * n + 15)%nat by lia. now rewrite E. }
    rewrite I. cbn [obind]. pose proof (bz_range b). replace (Z.of_nat (length p) <? 16) with false by lia. rewrite orb_false_r. destruct (Z.ltb_spec 16 (bz b)); [replace (bz b <=? 16) with false by lia; reflexivity|]. replace (bz b <=? 16) with true by lia.
    unfold slice. replace (_ && _) with true by lia. cbn [obind]. rewrite skipn_O. do 3 f_equal. lia.
  Qed.
  (** ** what Decrypt does on the parts of its input *)
  Definition msg (iv c lx x ly y ct mac : bytes) : bytes := iv ++ c ++ lx ++ x ++ ly ++ y ++ ct ++ mac.
  Lemma dec_eq d iv c lx x ly y ct mac : length iv = 16%nat -> length c = 2%nat -> length lx = 2%nat -> length x = 32%nat -> length ly = 2%nat -> length y = 32%nat -> length mac = 32%nat -> (16 <= length ct)%nat ->
    decrypt d (msg iv c lx x ly y ct mac) =
      if negb (beq c curve_bytes) then Ret None else if negb (beq lx coord_len) then Ret None else if negb (beq ly coord_len) then Ret None else
      match parse_pub (zb 4 :: x ++ y) with
      | None => Ret None
      | Some q => if negb (length ct mod 16 =? 0)%nat then Ret None else
          let key := H512 (shared d q) in
          if negb (beq mac (HM (skipn 32 key) (iv ++ c ++ lx ++ x ++ ly ++ y ++ ct))) then Ret None
          else remove_pad (cbc_dec aes_d (length ct / 16) (firstn 32 key) iv ct)
      end.
  Proof.
    intros Liv Lc Llx Lx Lly Ly Lm Lct. unfold Cipher.decrypt. assert (LT : length (msg iv c lx x ly y ct mac) = (118 + length ct)%nat) by (unfold msg; rewrite !app_length; lia). rewrite LT. cbv zeta.
    replace (_ <? 16 + 70 + 16 + 32) with false by lia.
    assert (S1 : slice (msg iv c lx x ly y ct mac) 0 16 = Ret iv) by (unfold msg; apply slice_to; lia). rewrite S1. cbn [obind].
    assert (S2 : slice (msg iv c lx x ly y ct mac) 16 18 = Ret c) by (unfold msg; apply slice_app; lia). rewrite S2. cbn [obind]. destruct (negb (beq c curve_bytes)); [reflexivity|].
    assert (S3 : slice (msg iv c lx x ly y ct mac) 18 20 = Ret lx) by (unfold msg; rewrite (app_assoc iv c); apply slice_app; rewrite ?app_length; lia). rewrite S3. cbn [obind]. destruct (negb (beq lx coord_len)); [reflexivity|].
    assert (S4 : slice (msg iv c lx x ly y ct mac) 20 52 = Ret x) by (unfold msg; rewrite (app_assoc iv c), (app_assoc _ lx); apply slice_app; rewrite ?app_length; lia). rewrite S4. cbn [obind].
    assert (S5 : slice (msg iv c lx x ly y ct mac) 52 54 = Ret ly) by (unfold msg; rewrite (app_assoc iv c), (app_assoc _ lx), (app_assoc _ x); apply slice_app; rewrite ?app_length; lia). rewrite S5. cbn [obind]. destruct (negb (beq ly coord_len)); [reflexivity|].
    assert (S6 : slice (msg iv c lx x ly y ct mac) 54 86 = Ret y) by (unfold msg; rewrite (app_assoc iv c), (app_assoc _ lx), (app_assoc _ x), (app_assoc _ ly); apply slice_app; rewrite ?app_length; lia). rewrite S6. cbn [obind].
    destruct (parse_pub (zb 4 :: x ++ y)) as [q|]; [|reflexivity].
    assert (M16 : ((Z.of_nat (118 + length ct) - 16 - 86 - 32) mod 16 =? 0) = (length ct mod 16 =? 0)%nat).
    { replace (Z.of_nat (118 + length ct) - 16 - 86 - 32) with (Z.of_nat (length ct) + (-1) * 16) by lia. rewrite Z.mod_add by lia. change 16 with (Z.of_nat 16). rewrite <- Nat2Z.inj_mod. destruct (Nat.eqb_spec (length ct mod 16) 0); lia. }
    rewrite M16. destruct (Nat.eqb_spec (length ct mod 16) 0) as [E16|]; [|reflexivity]. cbn [negb].
    assert (EB : msg iv c lx x ly y ct mac = (iv ++ c ++ lx ++ x ++ ly ++ y ++ ct) ++ mac) by (unfold msg; rewrite <- !app_assoc; reflexivity). assert (LB : length (iv ++ c ++ lx ++ x ++ ly ++ y ++ ct) = (86 + length ct)%nat) by (rewrite !app_length; lia).
    assert (S7 : slice (msg iv c lx x ly y ct mac) (Z.of_nat (118 + length ct) - 32) (Z.of_nat (118 + length ct)) = Ret mac) by (rewrite EB; pose proof (slice_app (iv ++ c ++ lx ++ x ++ ly ++ y ++ ct) mac [] (Z.of_nat (118 + length ct) - 32) (Z.of_nat (118 + length ct)) ltac:(lia) ltac:(lia)) as Q; rewrite app_nil_r in Q; exact Q). rewrite S7. cbn [obind].
    assert (S8 : slice (msg iv c lx x ly y ct mac) 0 (Z.of_nat (118 + length ct) - 32) = Ret (iv ++ c ++ lx ++ x ++ ly ++ y ++ ct)) by (rewrite EB; apply slice_to; lia). rewrite S8. cbn [obind].
    destruct (negb (beq mac _)); [reflexivity|].
    assert (S9 : slice (msg iv c lx x ly y ct mac) 86 (Z.of_nat (118 + length ct) - 32) = Ret ct) by (unfold msg; rewrite (app_assoc iv c), (app_assoc _ lx), (app_assoc _ x), (app_assoc _ ly), (app_assoc _ y); apply slice_app; rewrite ?app_length; lia). rewrite S9. cbn [obind].
    unfold crypt_dec. rewrite E16. reflexivity.
  Qed.
  Lemma parts i : (134 <= length i)%nat -> exists iv c lx x ly y ct mac, i = msg iv c lx x ly y ct mac /\ length iv = 16%nat /\ length c = 2%nat /\ length lx = 2%nat /\ length x = 32%nat /\ length ly = 2%nat /\ length y = 32%nat /\ length mac = 32%nat /\ (16 <= length ct)%nat.
  Proof.
    intro L. destruct (len_split i 16 ltac:(lia)) as (iv & i1 & E1 & L1). subst i. rewrite app_length in L. destruct (len_split i1 2 ltac:(lia)) as (c & i2 & E & L2). subst i1. rewrite app_length in L.
    destruct (len_split i2 2 ltac:(lia)) as (lx & i3 & E & L3). subst i2. rewrite app_length in L. destruct (len_split i3 32 ltac:(lia)) as (x & i4 & E & L4). subst i3. rewrite app_length in L.
    destruct (len_split i4 2 ltac:(lia)) as (ly & i5 & E & L5). subst i4. rewrite app_length in L. destruct (len_split i5 32 ltac:(lia)) as (y & i6 & E & L6). subst i5. rewrite app_length in L.
    destruct (len_split i6 (length i6 - 32) ltac:(lia)) as (ct & mac & E & L7). subst i6. rewrite app_length in *. exists iv, c, lx, x, ly, y, ct, mac. split; [reflexivity|]. repeat (split; [lia|]). lia.
  Qed.
  (** Decrypt never panics, and what it accepts carries the MAC of all its other bytes, under the key agreed between the private number and a
      point of the curve; the text returned is the decrypted one without its padding *)
  Theorem C62_decrypt d i : exists o, decrypt d i = Ret o /\ forall m, o = Some m -> exists iv x y ct mac n pl,
    i = (iv ++ curve_bytes ++ coord_len ++ x ++ coord_len ++ y ++ ct) ++ mac /\ length iv = 16%nat /\ length x = 32%nat /\ length y = 32%nat /\ length mac = 32%nat /\ length ct = (16 * S n)%nat /\
    on_curve (of_be x) (of_be y) /\ mac = HM (skipn 32 (H512 (shared d (of_be x, of_be y)))) (iv ++ curve_bytes ++ coord_len ++ x ++ coord_len ++ y ++ ct) /\
    (pl <= 16)%nat /\ m = firstn (16 * S n - pl) (cbc_dec aes_d (S n) (firstn 32 (H512 (shared d (of_be x, of_be y)))) iv ct) /\ length m = (16 * S n - pl)%nat.
  Proof.
    destruct (le_lt_dec 134 (length i)) as [L|L].
    2:{ exists None. split; [|discriminate]. unfold Cipher.decrypt. replace (_ <? _) with true by lia. reflexivity. }
    destruct (parts i L) as (iv & c & lx & x & ly & y & ct & mac & -> & Liv & Lc & Llx & Lx & Lly & Ly & Lm & Lct). rewrite (dec_eq d iv c lx x ly y ct mac Liv Lc Llx Lx Lly Ly Lm Lct).
    destruct (beq c curve_bytes) eqn:B1; cbn [negb]; [|exists None; split; [reflexivity|discriminate]]. destruct (beq lx coord_len) eqn:B2; cbn [negb]; [|exists None; split; [reflexivity|discriminate]]. destruct (beq ly coord_len) eqn:B3; cbn [negb]; [|exists None; split; [reflexivity|discriminate]].
    apply beq_ok in B1, B2, B3. subst c lx ly. destruct (parse_pub (zb 4 :: x ++ y)) as [q|] eqn:PQ; [|exists None; split; [reflexivity|discriminate]].
    destruct (Nat.eqb_spec (length ct mod 16) 0) as [E16|]; cbn [negb]; [|exists None; split; [reflexivity|discriminate]]. cbv zeta. destruct (beq mac _) eqn:B4; cbn [negb]; [|exists None; split; [reflexivity|discriminate]]. apply beq_ok in B4.
    assert (LC : exists n, length ct = (16 * S n)%nat). { exists (length ct / 16 - 1)%nat. pose proof (Nat.div_mod (length ct) 16 ltac:(lia)). lia. } destruct LC as [n LC].
    destruct (div16 ct (S n) LC) as [_ ->].
    assert (HQ : q = (of_be x, of_be y) /\ on_curve (of_be x) (of_be y)).
    { destruct q as [qx qy]. apply C59_parse in PQ as [(f & r & E & LR & -> & -> & O & _)|(f & r & E & LR & _)].
      - assert (r = x ++ y) as -> by congruence. rewrite firstn_app, skipn_app, Lx, Nat.sub_diag, firstn_O, skipn_O, app_nil_r, firstn_all2, skipn_all2, app_nil_l in * by lia. auto.
      - exfalso. assert (r = x ++ y) as -> by congruence. rewrite app_length in LR. lia. }
    destruct HQ as [-> O]. set (key := H512 (shared d (of_be x, of_be y))) in *.
    pose proof (cbc_dec_len (S n) (firstn 32 key) iv ct Liv LC) as LD. destruct (remove_ok _ n LD) as (b & _ & ->). eexists. split; [reflexivity|]. intros m Hm. destruct (Z.leb_spec (bz b) 16) as [LE|]; [|discriminate Hm].
    pose proof (bz_range b). exists iv, x, y, ct, mac, n, (Z.to_nat (bz b)). split; [unfold msg; rewrite <- !app_assoc; reflexivity|]. repeat (split; [assumption|]). split; [lia|].
    assert (m = firstn (16 * S n - Z.to_nat (bz b)) (cbc_dec aes_d (S n) (firstn 32 key) iv ct)) as -> by congruence. split; [reflexivity|]. rewrite firstn_length, LD. lia.
  Qed.
  (** Encrypt then Decrypt with the private number of the key gives the message back, whatever the ephemeral number, the iv and the message *)
  Theorem C62_round_trip d e q iv m : 0 <= d -> 0 < e < N -> length iv = 16%nat -> s_base_mul T (to_be d) = Some q ->
    exists c, encrypt q e iv m = Ret c /\ decrypt d c = Ret (Some m) /\ length c = (118 + 16 * (length m / 16 + 1))%nat.
  Proof.
    intros D E I EQ'. rewrite (bm T d HT D) in EQ'. assert (q = aff (zm d G)) as -> by congruence. clear EQ'. pose proof (kg_nz e E) as NZ. unfold Cipher.encrypt. rewrite (bm T e HT) by lia. cbn [deref obind].
    destruct (aff (zm e G)) as [x y] eqn:AE. assert (O : on_curve x y) by (apply on_curve_point; exists (zm e G); auto). destruct (on_lt _ _ O) as [RX RY].
    unfold ser_unc. cbn [fst snd]. rewrite !pad32_fixed by assumption. assert (LX : length (be_fixed 32 x) = 32%nat) by apply be_fixed_length. assert (LY : length (be_fixed 32 y) = 32%nat) by apply be_fixed_length.
    assert (S1 : slice (zb 4 :: be_fixed 32 x ++ be_fixed 32 y) 1 33 = Ret (be_fixed 32 x)) by (apply (slice_app [zb 4] (be_fixed 32 x) (be_fixed 32 y)); rewrite ?LX; reflexivity). rewrite S1. cbn [obind].
    assert (S2 : slice (zb 4 :: be_fixed 32 x ++ be_fixed 32 y) 33 65 = Ret (be_fixed 32 y)).
    { replace (zb 4 :: be_fixed 32 x ++ be_fixed 32 y) with ((zb 4 :: be_fixed 32 x) ++ be_fixed 32 y ++ []) by (rewrite app_nil_r; reflexivity). apply slice_app; [cbn [length]; rewrite LX; reflexivity|rewrite LY; reflexivity]. }
    rewrite S2. cbn [obind]. pose proof (add_pad_len m) as LP. rewrite (crypt_enc_ok _ _ _ _ LP). cbn [obind]. set (k := (length m / 16 + 1)%nat) in *. set (key := H512 (shared e (aff (zm d G)))).
    set (ct := cbc_enc aes_e k (firstn 32 key) iv (add_pad m)). assert (LC : length ct = (16 * k)%nat) by (apply cbc_enc_len; assumption).
    eexists. split; [reflexivity|]. split.
    - set (mac := HM _ _). assert (EM : forall c1 c2 c3 z1 z2, (iv ++ c1 ++ c2 ++ z1 ++ c3 ++ z2 ++ ct) ++ mac = msg iv c1 c2 z1 c3 z2 ct mac) by (intros; unfold msg; rewrite <- !app_assoc; reflexivity). rewrite EM.
      rewrite (dec_eq d iv curve_bytes coord_len _ coord_len _ ct mac); [|assumption || reflexivity || apply HM_len..|lia]. replace (beq curve_bytes curve_bytes) with true by (symmetry; apply beq_ok; reflexivity). replace (beq coord_len coord_len) with true by (symmetry; apply beq_ok; reflexivity). cbn [negb].
      assert (PP : parse_pub (zb 4 :: be_fixed 32 x ++ be_fixed 32 y) = Some (x, y)). { destruct (C59_round_trip x y O) as (R & _). unfold ser_unc in R. cbn [fst snd] in R. rewrite !pad32_fixed in R by assumption. exact R. }
      rewrite PP. destruct (div16 ct k LC) as [-> ->]. cbn [Nat.eqb negb]. cbv zeta.
      assert (SH : shared d (x, y) = shared e (aff (zm d G))). { rewrite <- AE, !shared_eq by lia. rewrite <- !ZMM. now rewrite Z.mul_comm. }
      rewrite SH. fold key. unfold mac at 1. replace (beq _ _) with true by (symmetry; apply beq_ok; reflexivity). cbn [negb]. unfold ct. rewrite cbc_inv by assumption. exact (proj1 (C62_padding m)).
    - rewrite !app_length, HM_len, LX, LY, LC, I. cbn [length curve_bytes coord_len]. lia.
  Qed.
  (** a changed ciphertext that is still accepted is a MAC equation: with the same point and tag, the MAC values of two different strings agree *)
  Theorem C62_tamper d c c' m m' : decrypt d c = Ret (Some m) -> decrypt d c' = Ret (Some m') -> c <> c' -> firstn 70 (skipn 16 c) = firstn 70 (skipn 16 c') -> skipn (length c - 32) c = skipn (length c' - 32) c' ->
    exists k b b', b <> b' /\ HM k b = HM k b' /\ b = firstn (length c - 32) c /\ b' = firstn (length c' - 32) c'.
  Proof.
    intros H H' ND PT TG. destruct (C62_decrypt d c) as (o & E & F). rewrite H in E. assert (o = Some m) as -> by congruence. destruct (F m eq_refl) as (iv & x & y & ct & mac & n & pl & EC' & Liv & Lx & Ly & Lm & _ & _ & EM & _). clear F E.
    destruct (C62_decrypt d c') as (o & E & F). rewrite H' in E. assert (o = Some m') as -> by congruence. destruct (F m' eq_refl) as (iv' & x' & y' & ct' & mac' & n' & pl' & EC2 & Liv' & Lx' & Ly' & Lm' & _ & _ & EM' & _). clear F E.
    set (b := iv ++ curve_bytes ++ coord_len ++ x ++ coord_len ++ y ++ ct) in *. set (b' := iv' ++ curve_bytes ++ coord_len ++ x' ++ coord_len ++ y' ++ ct') in *.
    assert (FB : forall (u v : bytes), length v = 32%nat -> firstn (length (u ++ v) - 32) (u ++ v) = u /\ skipn (length (u ++ v) - 32) (u ++ v) = v).
    { intros u v L. rewrite app_length, L, Nat.add_sub, firstn_app, skipn_app, Nat.sub_diag, firstn_O, skipn_O, app_nil_r, firstn_all, skipn_all. auto. }
    rewrite EC', EC2 in *. destruct (FB b mac Lm) as [F1 F2]. destruct (FB b' mac' Lm') as [F1' F2']. rewrite F2, F2' in TG. rewrite F1, F1'.
    assert (XY : x = x' /\ y = y').
    { assert (SK : forall iv x y ct mac, length iv = 16%nat -> length x = 32%nat -> length y = 32%nat -> firstn 70 (skipn 16 ((iv ++ curve_bytes ++ coord_len ++ x ++ coord_len ++ y ++ ct) ++ mac)) = curve_bytes ++ coord_len ++ x ++ coord_len ++ y).
      { clear. intros iv x y ct mac A B C. rewrite <- !app_assoc. rewrite skipn_app, A, Nat.sub_diag, skipn_O, skipn_all2, app_nil_l by lia.
        replace (curve_bytes ++ coord_len ++ x ++ coord_len ++ y ++ ct ++ mac) with ((curve_bytes ++ coord_len ++ x ++ coord_len ++ y) ++ ct ++ mac) by (rewrite <- !app_assoc; reflexivity).
        assert (L : length (curve_bytes ++ coord_len ++ x ++ coord_len ++ y) = 70%nat) by (rewrite !app_length, B, C; reflexivity). rewrite firstn_app, L, Nat.sub_diag, firstn_O, app_nil_r, firstn_all2 by lia. reflexivity. }
      unfold b, b' in PT. rewrite !SK in PT by assumption. apply app_inv_head in PT. apply app_inv_head in PT. assert (E1 : firstn 32 (x ++ coord_len ++ y) = x) by (rewrite firstn_app, Lx, Nat.sub_diag, firstn_O, app_nil_r, firstn_all2 by lia; reflexivity).
      assert (E2 : firstn 32 (x' ++ coord_len ++ y') = x') by (rewrite firstn_app, Lx', Nat.sub_diag, firstn_O, app_nil_r, firstn_all2 by lia; reflexivity). rewrite PT, E2 in E1. subst x'. apply app_inv_head in PT. apply app_inv_head in PT. auto. }
    destruct XY as [<- <-]. exists (skipn 32 (H512 (shared d (of_be x, of_be y)))), b, b'. split; [intro K; apply ND; rewrite K, TG; reflexivity|]. split; [|auto]. rewrite <- EM'. congruence.
  Qed.
End C62.
(** the hypotheses can be met *)
Theorem C62_example : exists aes_e aes_d HM : bytes -> bytes -> bytes, (forall (k b : bytes), length b = 16%nat -> length (aes_e k b) = 16%nat /\ length (aes_d k b) = 16%nat) /\ (forall (k b : bytes), length b = 16%nat -> aes_d k (aes_e k b) = b) /\
  (forall (k b : bytes), length (HM k b) = 32%nat) /\ table_ok gen_table /\ 0 < 1 < N.
Proof.
  exists (fun _ b => rev b), (fun _ b => rev b), (fun _ _ => repeat (zb 0) 32). split; [intros k b L; now rewrite !rev_length|]. split; [intros; apply rev_involutive|]. split; [reflexivity|]. split; [exact gen_table_ok|split; reflexivity].
Qed.
