(** PropDer.v -- C61: signature encodings of btcec/v1/signature.go (Serialize, ParseSignature, ParseDERSignature). *)
From Verif Require Import Base BigInt NumTh AbZ SecpPrimes Secp256k1 SecpCurve PropSecp SecpMul Ecdsa PropPubKey PropEcdsa.
Local Notation N := n256k1.

(** ** specification: an ASN.1 integer content is minimal and not negative; a signature is a SEQUENCE of two INTEGERs *)
Definition minimal (b : bytes) : Prop := match b with
  | [] => False
  | b0 :: t => bz b0 < 128 /\ (bz b0 = 0 -> match t with [] => True | b1 :: _ => 128 <= bz b1 end)
  end.
Definition two_ints (rb sb : bytes) : bytes :=
  [zb 48; zb (4 + Z.of_nat (length rb) + Z.of_nat (length sb)); zb 2; zb (Z.of_nat (length rb))] ++ rb ++ [zb 2; zb (Z.of_nat (length sb))] ++ sb.
Definition in_range (x : Z) : Prop := 0 < x < N.

(** ** list reading *)
Lemma idx_app {A} (l r : list A) n i : Z.of_nat (length l) = n -> 0 <= i -> idx (l ++ r) (n + i) = idx r i.
Proof.
  intros <- I. unfold idx. replace (0 <=? Z.of_nat (length l) + i) with true by lia. replace (0 <=? i) with true by lia.
  replace (Z.to_nat (Z.of_nat (length l) + i)) with (length l + Z.to_nat i)%nat by lia. rewrite nth_error_app2 by lia. now rewrite Nat.add_comm, Nat.add_sub.
Qed.
Lemma idx_app0 {A} (l r : list A) n : Z.of_nat (length l) = n -> idx (l ++ r) n = idx r 0.
Proof. intro H. rewrite <- (idx_app l r n 0 H) by lia. f_equal. lia. Qed.
Lemma slice_app (l m r : bytes) a b : Z.of_nat (length l) = a -> b = a + Z.of_nat (length m) -> slice (l ++ m ++ r) a b = Ret m.
Proof.
  intros <- ->. unfold slice. rewrite !app_length. replace (_ && _) with true by lia.
  replace (Z.to_nat (Z.of_nat (length l) + Z.of_nat (length m) - Z.of_nat (length l))) with (length m) by lia. rewrite Nat2Z.id.
  rewrite skipn_app, skipn_all, Nat.sub_diag, skipn_O, app_nil_l, firstn_app, firstn_all, Nat.sub_diag, firstn_O, app_nil_r. reflexivity.
Qed.
Lemma slice_to (l r : bytes) b : b = Z.of_nat (length l) -> slice (l ++ r) 0 b = Ret l.
Proof. intro H. exact (slice_app [] l r 0 b eq_refl H). Qed.
Lemma len_split {A} (l : list A) (n : nat) : (n <= length l)%nat -> exists a b, l = a ++ b /\ length a = n.
Proof. intro H. exists (firstn n l), (skipn n l). split; [symmetry; apply firstn_skipn|]. rewrite firstn_length. lia. Qed.

(** ** canonical integers *)
Lemma land128_all : forallb (fun b => Bool.eqb (Z.land b 128 =? 128) (128 <=? b) && Bool.eqb (negb (Z.land b 128 =? 0)) (128 <=? b)) bytes_all = true.
Proof. vm_compute. reflexivity. Qed.
Lemma land128 f : (Z.land (bz f) 128 =? 128) = (128 <=? bz f) /\ negb (Z.land (bz f) 128 =? 0) = (128 <=? bz f).
Proof.
  pose proof (proj1 (forallb_forall _ _) land128_all (bz f) (in_bytes _ (bz_range f))) as H. apply andb_prop in H as [H1 H2]. apply Bool.eqb_prop in H1, H2. auto.
Qed.
Lemma padding_ok b : b <> [] -> exists c, canonical_padding b = Ret c /\ (c = true <-> minimal b).
Proof.
  destruct b as [|b0 t]; [congruence|]. intros _. unfold canonical_padding. change (idx (b0 :: t) 0) with (Ret b0). cbn [obind]. rewrite (proj1 (land128 b0)). cbn [minimal].
  destruct (Z.leb_spec 128 (bz b0)) as [L|L]; [exists false; split; [reflexivity|]; split; [discriminate|lia]|].
  destruct t as [|b1 t]; [exists true; split; [reflexivity|]; split; auto|]. replace (1 <? Z.of_nat (length (b0 :: b1 :: t))) with true by (cbn [length]; lia). cbn [andb].
  destruct (Z.eqb_spec (bz b0) 0) as [Z0|Z0].
  - change (idx (b0 :: b1 :: t) 1) with (Ret b1). cbn [obind]. rewrite (proj1 (land128 b1)). eexists. split; [reflexivity|]. rewrite Z.leb_le. split; [auto|intros [_ K]; auto].
  - exists true. split; [reflexivity|]. split; [intros _; split; [exact L|lia]|reflexivity].
Qed.
Lemma canon_min v : 0 < v -> minimal (canonicalize_int v) /\ of_be (canonicalize_int v) = v.
Proof.
  intro V. unfold canonicalize_int. pose proof (of_be_to_be_nonneg v ltac:(lia)) as E. pose proof (to_be_no_lead0 v) as L. destruct (to_be v) as [|c t]; [cbn in E; lia|]. cbn [no_lead0] in L.
  rewrite (proj2 (land128 c)). destruct (Z.leb_spec 128 (bz c)) as [H|H].
  - split; [cbn [minimal]; split; [reflexivity|intros _; exact H]|]. rewrite of_be_cons. change (bz (zb 0)) with 0. rewrite Z.mul_0_l, Z.add_0_l. exact E.
  - split; [cbn [minimal]; split; [exact H|lia]|exact E].
Qed.
Lemma min_canon b : minimal b -> 0 < of_be b -> b = canonicalize_int (of_be b).
Proof.
  destruct b as [|b0 t]; [intros []|]. intros [H H0] V. unfold canonicalize_int. rewrite to_be_of_be. cbn [strip0]. destruct (Z.eqb_spec (bz b0) 0) as [Z0|Z0].
  - specialize (H0 Z0). assert (B0 : b0 = zb 0) by (rewrite <- (zb_bz b0), Z0; reflexivity). destruct t as [|b1 t]; [subst b0; cbn in V; lia|]. cbn [strip0]. replace (bz b1 =? 0) with false by lia.
    rewrite (proj2 (land128 b1)). replace (128 <=? bz b1) with true by lia. now rewrite B0.
  - rewrite (proj2 (land128 b0)). replace (128 <=? bz b0) with false by lia. reflexivity.
Qed.
Lemma n_pow : N < 256 ^ 32. Proof. reflexivity. Qed.
Lemma canon_len v : in_range v -> (1 <= length (canonicalize_int v) <= 33)%nat.
Proof.
  intros [V1 V2]. assert (L : (length (to_be v) <= 32)%nat). { apply to_be_length. rewrite Z.abs_eq by lia. change (256 ^ Z.of_nat 32) with (256 ^ 32). pose proof n_pow. lia. }
  unfold canonicalize_int. pose proof (of_be_to_be_nonneg v ltac:(lia)) as E. destruct (to_be v) as [|c t]; [cbn in E; lia|]. cbn [length] in L. destruct (negb _); cbn [length]; lia.
Qed.

(** ** what the parser accepts, whatever the bytes *)
Lemma zb_bz_eq f v : bz f = v -> f = zb v. Proof. intros <-. symmetry. apply zb_bz. Qed.
Lemma sgn_one r : negb (Z.sgn r =? 1) = (r <=? 0). Proof. pose proof (Z.sgn_spec r). lia. Qed.
Lemma parse_forward s der : exists o, parse_sig s der = Ret o /\ forall r v, o = Some (r, v) -> exists rb sb tail,
  s = two_ints rb sb ++ tail /\ rb <> [] /\ sb <> [] /\ 4 + Z.of_nat (length rb) + Z.of_nat (length sb) <= 253 /\ of_be rb = r /\ of_be sb = v /\ in_range r /\ in_range v /\ (der = true -> minimal rb /\ minimal sb).
Proof.
  assert (NO : exists o, Ret (@None (Z * Z)) = Ret o /\ forall r v, o = Some (r, v) -> exists rb sb tail, s = two_ints rb sb ++ tail /\ rb <> [] /\ sb <> [] /\ 4 + Z.of_nat (length rb) + Z.of_nat (length sb) <= 253 /\
    of_be rb = r /\ of_be sb = v /\ in_range r /\ in_range v /\ (der = true -> minimal rb /\ minimal sb)) by (exists None; split; [reflexivity|discriminate]).
  unfold parse_sig. destruct (Z.ltb_spec (Z.of_nat (length s)) 8) as [|L8]; [exact NO|]. destruct s as [|h [|sl s]]; [cbn in L8; lia..|]. change (idx (h :: sl :: s) 0) with (Ret h). cbn [obind].
  destruct (Z.eqb_spec (bz h) 48) as [EH|]; [|exact NO]. cbn [negb]. change (idx (h :: sl :: s) 1) with (Ret sl). cbn [obind]. cbv zeta. pose proof (bz_range sl) as RS.
  destruct ((Z.of_nat (length (h :: sl :: s)) <? (bz sl + 2) mod 256) || ((bz sl + 2) mod 256 <? 8)) eqn:ET; [exact NO|]. apply orb_false_elim in ET as [T1 T2]. apply Z.ltb_ge in T1, T2.
  assert (SL : bz sl + 2 < 256). { destruct (Z_lt_dec (bz sl + 2) 256) as [K|K]; [exact K|]. assert (M : (bz sl + 2) mod 256 = bz sl + 2 - 256) by (symmetry; apply (Z.mod_unique_pos _ _ 1); lia). lia. }
  rewrite (Z.mod_small (bz sl + 2)) in * by lia. cbn [length] in T1. destruct (len_split s (Z.to_nat (bz sl)) ltac:(lia)) as (body & tail & ES & LB). subst s.
  rewrite (slice_to (h :: sl :: body) tail) by (cbn [length]; lia). cbn [obind]. destruct body as [|m [|rl q]]; [cbn in LB; lia..|]. change (idx (h :: sl :: m :: rl :: q) 2) with (Ret m). cbn [obind].
  destruct (Z.eqb_spec (bz m) 2) as [EM|]; [|exact NO]. cbn [negb]. change (idx (h :: sl :: m :: rl :: q) 3) with (Ret rl). cbn [obind].
  destruct ((bz rl <=? 0) || (Z.of_nat (length (h :: sl :: m :: rl :: q)) - 4 - 3 <? bz rl)) eqn:ER; [exact NO|]. apply orb_false_elim in ER as [R1 R2]. apply Z.leb_gt in R1. apply Z.ltb_ge in R2. cbn [length] in R2, LB.
  destruct (len_split q (Z.to_nat (bz rl)) ltac:(lia)) as (rb & q2 & EQ & LR). subst q. rewrite app_length in *.
  assert (NR : rb <> []) by (intros ->; cbn in LR; lia).
  rewrite (slice_app [h; sl; m; rl] rb q2) by (cbn [length]; lia). cbn [obind].
  assert (PR : exists c, (if der then canonical_padding rb else Ret true) = Ret c /\ (c = true -> der = true -> minimal rb)).
  { destruct der; [|exists true; split; [reflexivity|discriminate]]. destruct (padding_ok rb NR) as (c & E & M). exists c. split; [exact E|intros K _; apply M, K]. }
  destruct PR as (rc & -> & PR). cbn [obind]. destruct rc; [|exact NO]. cbn [negb]. specialize (PR eq_refl).
  replace (h :: sl :: m :: rl :: rb ++ q2) with (([h; sl; m; rl] ++ rb) ++ q2) by (rewrite <- app_assoc; reflexivity).
  assert (LH : Z.of_nat (length ([h; sl; m; rl] ++ rb)) = 4 + bz rl) by (rewrite app_length; cbn [length]; lia).
  rewrite (idx_app0 _ q2 _ LH). destruct q2 as [|m2 [|sl2 sb]]; [cbn [length] in R2, LB; clear - R2 LB LR R1; lia..|]. change (idx (m2 :: sl2 :: sb) 0) with (Ret m2). cbn [obind].
  destruct (Z.eqb_spec (bz m2) 2) as [EM2|]; [|exact NO]. cbn [negb]. rewrite (idx_app _ (m2 :: sl2 :: sb) _ 1 LH) by lia. change (idx (m2 :: sl2 :: sb) 1) with (Ret sl2). cbn [obind].
  assert (LA : Z.of_nat (length (([h; sl; m; rl] ++ rb) ++ m2 :: sl2 :: sb)) = 4 + bz rl + 2 + Z.of_nat (length sb)) by (rewrite app_length, Nat2Z.inj_add, LH; cbn [length]; lia). rewrite LA.
  destruct ((bz sl2 <=? 0) || (4 + bz rl + 2 + Z.of_nat (length sb) - (4 + bz rl + 2) <? bz sl2)) eqn:E2; [exact NO|]. apply orb_false_elim in E2 as [S1 S2]. apply Z.leb_gt in S1. apply Z.ltb_ge in S2.
  destruct (len_split sb (Z.to_nat (bz sl2)) ltac:(lia)) as (sb' & q3 & EQ3 & LS). subst sb. rewrite app_length in LA.
  assert (NS : sb' <> []) by (intros ->; cbn in LS; lia).
  assert (SLI : slice (([h; sl; m; rl] ++ rb) ++ m2 :: sl2 :: sb' ++ q3) (4 + bz rl + 2) (4 + bz rl + 2 + bz sl2) = Ret sb').
  { replace (([h; sl; m; rl] ++ rb) ++ m2 :: sl2 :: sb' ++ q3) with ((([h; sl; m; rl] ++ rb) ++ [m2; sl2]) ++ sb' ++ q3) by (rewrite <- app_assoc; reflexivity).
    apply slice_app; [rewrite app_length, Nat2Z.inj_add, LH; cbn [length]; lia|lia]. }
  rewrite SLI. cbn [obind].
  assert (PS : exists c, (if der then canonical_padding sb' else Ret true) = Ret c /\ (c = true -> der = true -> minimal sb')).
  { destruct der; [|exists true; split; [reflexivity|discriminate]]. destruct (padding_ok sb' NS) as (c & E & M). exists c. split; [exact E|intros K _; apply M, K]. }
  destruct PS as (sc & -> & PS). cbn [obind]. destruct sc; [|exact NO]. cbn [negb]. specialize (PS eq_refl).
  rewrite app_length. destruct (Z.eqb_spec (4 + bz rl + 2 + bz sl2) (4 + bz rl + 2 + Z.of_nat (length sb' + length q3))) as [EL|]; [|exact NO]. cbn [negb].
  assert (q3 = []) as -> by (destruct q3; [reflexivity|cbn [length] in EL; lia]). rewrite app_nil_r in *. rewrite !sgn_one.
  destruct (Z.leb_spec (of_be rb) 0); [exact NO|]. destruct (Z.leb_spec (of_be sb') 0); [exact NO|]. destruct (Z.leb_spec N (of_be rb)); [exact NO|]. destruct (Z.leb_spec N (of_be sb')); [exact NO|].
  eexists. split; [reflexivity|]. intros r v E. assert (r = of_be rb /\ v = of_be sb') as [-> ->] by (split; congruence).
  exists rb, sb', tail. rewrite ?app_length in LB. cbn [length] in LB, EL. rewrite ?app_length in LB. cbn [length] in LB. split.
  { unfold two_ints. rewrite (zb_bz_eq h 48 EH), (zb_bz_eq m 2 EM), (zb_bz_eq m2 2 EM2), (zb_bz_eq sl (4 + Z.of_nat (length rb) + Z.of_nat (length sb'))), (zb_bz_eq rl (Z.of_nat (length rb))), (zb_bz_eq sl2 (Z.of_nat (length sb'))) by lia.
    cbn [app]. rewrite <- !app_assoc. reflexivity. }
  split; [exact NR|]. split; [exact NS|]. split; [lia|]. split; [reflexivity|]. split; [reflexivity|]. split; [split; assumption|]. split; [split; assumption|auto].
Qed.
Lemma parse_back rb sb tail der : rb <> [] -> sb <> [] -> 4 + Z.of_nat (length rb) + Z.of_nat (length sb) <= 253 -> in_range (of_be rb) -> in_range (of_be sb) -> (der = true -> minimal rb /\ minimal sb) ->
  parse_sig (two_ints rb sb ++ tail) der = Ret (Some (of_be rb, of_be sb)).
Proof.
  intros NR NS L [R1 R2] [S1 S2] M. assert (LR : 1 <= Z.of_nat (length rb)) by (destruct rb; [congruence|cbn [length]; lia]). assert (LS : 1 <= Z.of_nat (length sb)) by (destruct sb; [congruence|cbn [length]; lia]).
  unfold two_ints. set (h := zb 48). set (sl := zb (4 + _ + _)). set (rl := zb (Z.of_nat (length rb))). set (sl2 := zb (Z.of_nat (length sb))). set (two := zb 2).
  assert (Bsl : bz sl = 4 + Z.of_nat (length rb) + Z.of_nat (length sb)) by (apply bz_zb_small; lia). assert (Brl : bz rl = Z.of_nat (length rb)) by (apply bz_zb_small; lia). assert (Bsl2 : bz sl2 = Z.of_nat (length sb)) by (apply bz_zb_small; lia).
  assert (Bh : bz h = 48) by reflexivity. assert (B2 : bz two = 2) by reflexivity. clearbody h sl rl sl2 two. cbn [app].
  set (body := h :: sl :: two :: rl :: rb ++ two :: sl2 :: sb). assert (EB : h :: sl :: two :: rl :: (rb ++ two :: sl2 :: sb) ++ tail = body ++ tail) by reflexivity.
  assert (LB : Z.of_nat (length body) = 6 + Z.of_nat (length rb) + Z.of_nat (length sb)) by (unfold body; cbn [length]; rewrite app_length; cbn [length]; lia). rewrite EB.
  unfold parse_sig. rewrite app_length, Nat2Z.inj_add. replace (_ <? 8) with false by lia. change (idx (body ++ tail) 0) with (Ret h). cbn [obind]. rewrite Bh. cbn [Z.eqb Pos.eqb negb].
  change (idx (body ++ tail) 1) with (Ret sl). cbn [obind]. cbv zeta. rewrite Bsl. rewrite (Z.mod_small (_ + 2)) by lia. replace (_ || _) with false by lia. rewrite (slice_to body tail) by lia. cbn [obind].
  change (idx body 2) with (Ret two). cbn [obind]. rewrite B2. cbn [Z.eqb Pos.eqb negb]. change (idx body 3) with (Ret rl). cbn [obind]. rewrite Brl, LB. replace (_ || _) with false by lia.
  assert (SR : slice body 4 (4 + Z.of_nat (length rb)) = Ret rb) by exact (slice_app [h; sl; two; rl] rb (two :: sl2 :: sb) 4 _ eq_refl eq_refl). rewrite SR. cbn [obind].
  assert (PR : (if der then canonical_padding rb else Ret true) = Ret true). { destruct der; [|reflexivity]. destruct (padding_ok rb NR) as (c & -> & K). f_equal. apply K, M. reflexivity. } rewrite PR. cbn [obind negb].
  assert (E4 : body = ([h; sl; two; rl] ++ rb) ++ two :: sl2 :: sb) by (rewrite <- app_assoc; reflexivity). assert (L4 : Z.of_nat (length ([h; sl; two; rl] ++ rb)) = 4 + Z.of_nat (length rb)) by (rewrite app_length; cbn [length]; lia).
  assert (I4 : idx body (4 + Z.of_nat (length rb)) = Ret two) by (rewrite E4, (idx_app0 _ _ _ L4); reflexivity). rewrite I4. cbn [obind]. rewrite B2. cbn [Z.eqb Pos.eqb negb].
  assert (I5 : idx body (4 + Z.of_nat (length rb) + 1) = Ret sl2) by (rewrite E4, (idx_app _ _ _ 1 L4) by lia; reflexivity). rewrite I5. cbn [obind]. rewrite Bsl2. replace (_ || _) with false by lia.
  assert (SS : slice body (4 + Z.of_nat (length rb) + 2) (4 + Z.of_nat (length rb) + 2 + Z.of_nat (length sb)) = Ret sb).
  { replace body with ((([h; sl; two; rl] ++ rb) ++ [two; sl2]) ++ sb ++ []) by (rewrite E4, app_nil_r, <- app_assoc; reflexivity). apply slice_app; [rewrite app_length, Nat2Z.inj_add, L4; cbn [length]; lia|reflexivity]. }
  rewrite SS. cbn [obind]. assert (PS : (if der then canonical_padding sb else Ret true) = Ret true). { destruct der; [|reflexivity]. destruct (padding_ok sb NS) as (c & -> & K). f_equal. apply K, M. reflexivity. } rewrite PS. cbn [obind negb].
  replace (_ =? _) with true by lia. cbn [negb]. rewrite !sgn_one. replace (of_be rb <=? 0) with false by lia. replace (of_be sb <=? 0) with false by lia. replace (N <=? of_be rb) with false by lia. replace (N <=? of_be sb) with false by lia. reflexivity.
Qed.

Lemma ne_len (l : bytes) : (1 <= length l)%nat -> l <> []. Proof. destruct l; [cbn [length]; lia|discriminate]. Qed.
(** neither parser panics, whatever the bytes *)
Theorem C61_parse_total s der : exists o, parse_sig s der = Ret o.
Proof. destruct (parse_forward s der) as (o & E & _). eauto. Qed.
(** ParseSignature (BER) accepts exactly: SEQUENCE of two INTEGERs with one-byte lengths, values in [1, N-1], then anything *)
Theorem C61_parse_ber s r v : parse_sig s false = Ret (Some (r, v)) <-> exists rb sb tail,
  s = two_ints rb sb ++ tail /\ rb <> [] /\ sb <> [] /\ 4 + Z.of_nat (length rb) + Z.of_nat (length sb) <= 253 /\ of_be rb = r /\ of_be sb = v /\ in_range r /\ in_range v.
Proof.
  split.
  - intro H. destruct (parse_forward s false) as (o & E & F). rewrite H in E. assert (EO : o = Some (r, v)) by congruence. destruct (F r v EO) as (rb & sb & tail & A & B & C & D & E1 & E2 & I1 & I2 & _). exists rb, sb, tail. auto 10.
  - intros (rb & sb & tail & -> & NR & NS & L & <- & <- & I1 & I2). apply parse_back; auto. discriminate.
Qed.
(** ParseDERSignature accepts exactly the canonical encodings of r, s in [1, N-1], followed by anything: the signature is determined by the string and, up to
    trailing bytes, the string by the signature *)
Theorem C61_parse_der s r v : parse_sig s true = Ret (Some (r, v)) <-> in_range r /\ in_range v /\ exists tail, s = two_ints (canonicalize_int r) (canonicalize_int v) ++ tail.
Proof.
  split.
  - intro H. destruct (parse_forward s true) as (o & E & F). rewrite H in E. assert (EO : o = Some (r, v)) by congruence. destruct (F r v EO) as (rb & sb & tail & A & B & C & D & <- & <- & I1 & I2 & M). destruct (M eq_refl) as [M1 M2].
    split; [exact I1|]. split; [exact I2|]. exists tail. rewrite <- (min_canon rb M1 (proj1 I1)), <- (min_canon sb M2 (proj1 I2)). exact A.
  - intros (I1 & I2 & tail & ->). destruct (canon_min r (proj1 I1)) as [M1 V1]. destruct (canon_min v (proj1 I2)) as [M2 V2]. pose proof (canon_len r I1). pose proof (canon_len v I2).
    pose proof (parse_back (canonicalize_int r) (canonicalize_int v) tail true) as Q. rewrite V1, V2 in Q. apply Q; clear Q; [apply ne_len; lia|apply ne_len; lia|lia|assumption|assumption|auto].
Qed.
Theorem C61_canonical_int v : 0 < v -> minimal (canonicalize_int v) /\ of_be (canonicalize_int v) = v /\ forall b, minimal b -> of_be b = v -> b = canonicalize_int v.
Proof. intro V. destruct (canon_min v V) as [A B]. split; [exact A|]. split; [exact B|]. intros b M <-. apply min_canon; auto. Qed.
(** ** Serialize: valid strict DER of r and of the smaller of s and N - s; parsing gives these back, and verification does not notice the change *)
Lemma low_range s : in_range s -> in_range (low_s s) /\ low_s s <= half_order /\ (low_s s = s \/ low_s s = N - s).
Proof. intros [S1 S2]. pose proof half_lt as [H1 H2]. unfold low_s, in_range. destruct (Z.ltb_spec half_order s); lia. Qed.
Lemma ser_eq r s : sig_ser (r, s) = two_ints (canonicalize_int r) (canonicalize_int (low_s s)).
Proof.
  unfold sig_ser, two_ints. cbn [fst snd]. cbv zeta. do 2 f_equal. f_equal. f_equal. lia.
Qed.
Theorem C61_serialize r s der tail : in_range r -> in_range s ->
  parse_sig (sig_ser (r, s) ++ tail) der = Ret (Some (r, low_s s)) /\ in_range (low_s s) /\ low_s s <= half_order /\ (low_s s = s \/ low_s s = N - s) /\ (8 <= length (sig_ser (r, s)) <= 72)%nat.
Proof.
  intros R S. destruct (low_range s S) as (I & H & C). assert (PD : parse_sig (sig_ser (r, s) ++ tail) true = Ret (Some (r, low_s s))) by (apply C61_parse_der; split; [exact R|]; split; [exact I|]; exists tail; rewrite ser_eq; reflexivity).
  split.
  - destruct der; [exact PD|]. rewrite ser_eq. destruct (canon_min r (proj1 R)) as [M1 V1]. destruct (canon_min (low_s s) (proj1 I)) as [M2 V2]. pose proof (canon_len r R). pose proof (canon_len (low_s s) I).
    pose proof (parse_back (canonicalize_int r) (canonicalize_int (low_s s)) tail false) as Q. rewrite V1, V2 in Q. apply Q; clear Q; [apply ne_len; lia|apply ne_len; lia|lia|assumption|assumption|discriminate].
  - split; [exact I|]. split; [exact H|]. split; [exact C|]. rewrite ser_eq. unfold two_ints. pose proof (canon_len r R). pose proof (canon_len _ I). assert (B33 : (length (canonicalize_int (low_s s)) <= 32)%nat).
    { unfold canonicalize_int. pose proof (of_be_to_be_nonneg (low_s s) ltac:(destruct I; lia)) as E. pose proof (to_be_no_lead0 (low_s s)) as NL. destruct (to_be (low_s s)) as [|c t] eqn:ET; [cbn; lia|].
      assert (L32 : (length (c :: t) <= 32)%nat). { rewrite <- ET. apply to_be_length. rewrite Z.abs_eq by (destruct I; lia). change (256 ^ Z.of_nat 32) with (256 ^ 32). pose proof n_pow. destruct I. lia. }
      rewrite (proj2 (land128 c)). destruct (Z.leb_spec 128 (bz c)); cbn [length] in *; [|lia]. destruct (Nat.eq_dec (length t) 31) as [L31|]; [|lia]. exfalso.
      rewrite of_be_cons, L31 in E. pose proof (of_be_range t) as [T0 _]. assert (HO : half_order < 128 * 256 ^ Z.of_nat 31) by reflexivity. assert (128 * 256 ^ Z.of_nat 31 <= bz c * 256 ^ Z.of_nat 31) by (apply Z.mul_le_mono_nonneg_r; [discriminate|assumption]). lia. }
    rewrite !app_length; cbn [length]. rewrite ?app_length. cbn [length]. lia.
Qed.
Theorem C61_serialize_verifies T A h r s der : table_ok T -> in_range r -> in_range s ->
  exists rs, parse_sig (sig_ser (r, s)) der = Ret (Some rs) /\ (verify T (aff A) h rs = Ret true <-> verify T (aff A) h (r, s) = Ret true).
Proof.
  intros HT R S. exists (r, low_s s). destruct (C61_serialize r s der [] R S) as (E & _ & _ & C & _). rewrite app_nil_r in E. split; [exact E|]. destruct C as [-> | ->]; [reflexivity|]. symmetry. apply (C60_malleable T HT).
Qed.
(** ** refuted: the parsers do not pin the string down *)
(** trailing bytes are ignored, also by the DER parser *)
Theorem C61_trailing_refuted r s tail : in_range r -> in_range s -> parse_sig (sig_ser (r, s) ++ tail) true = parse_sig (sig_ser (r, s)) true.
Proof. intros R S. rewrite (proj1 (C61_serialize r s true tail R S)). rewrite <- (app_nil_r (sig_ser (r, s))). symmetry. apply (C61_serialize r s true [] R S). Qed.
(** a high s is accepted, although Serialize never writes one *)
Theorem C61_high_s_refuted r s : in_range r -> half_order < s < N -> exists b, parse_sig b true = Ret (Some (r, s)) /\ forall r' s', in_range r' -> in_range s' -> sig_ser (r', s') <> b.
Proof.
  intros R [S1 S2]. assert (S : in_range s) by (unfold in_range; pose proof half_lt; lia). exists (two_ints (canonicalize_int r) (canonicalize_int s)).
  assert (P0 : parse_sig (two_ints (canonicalize_int r) (canonicalize_int s)) true = Ret (Some (r, s))) by (apply C61_parse_der; split; [exact R|]; split; [exact S|]; exists []; now rewrite app_nil_r). split; [exact P0|].
  intros r' s' R' S' E. destruct (C61_serialize r' s' true [] R' S') as (P1 & _ & L & _). rewrite app_nil_r, E, P0 in P1. assert (s = low_s s') by congruence. lia.
Qed.
(** the lenient parser also accepts padded numbers and numbers whose first bit is set *)
Theorem C61_ber_lenient r v : in_range r -> in_range v -> parse_sig (two_ints (zb 0 :: be_fixed 32 r) (be_fixed 32 v)) false = Ret (Some (r, v)).
Proof.
  intros [R1 R2] [V1 V2]. apply C61_parse_ber. exists (zb 0 :: be_fixed 32 r), (be_fixed 32 v), []. rewrite app_nil_r. split; [reflexivity|]. split; [discriminate|].
  assert (L : forall x, length (be_fixed 32 x) = 32%nat) by (intro; apply be_fixed_length). split; [intro K; specialize (L v); rewrite K in L; discriminate L|]. cbn [length]. rewrite !L. split; [apply Z.leb_le; reflexivity|].
  assert (NP : N < 256 ^ Z.of_nat 32) by reflexivity. split; [rewrite of_be_cons; change (bz (zb 0)) with 0; rewrite Z.mul_0_l, Z.add_0_l; apply of_be_be_fixed; lia|]. split; [apply of_be_be_fixed; lia|]. split; split; assumption.
Qed.
Theorem C61_example : in_range 1 /\ in_range (half_order + 1) /\ sig_ser (1, 2) = map zb [48; 6; 2; 1; 1; 2; 1; 2] /\ parse_sig (map zb [48; 6; 2; 1; 129; 2; 1; 2]) true = Ret None /\ parse_sig (map zb [48; 6; 2; 1; 129; 2; 1; 2; 9]) false = Ret (Some (129, 2)).
Proof. split; [split; reflexivity|]. split; [split; reflexivity|]. split; [vm_compute; reflexivity|]. split; vm_compute; reflexivity. Qed.
