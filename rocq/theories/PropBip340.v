(** PropBip340.v -- C64: BIP-340 signatures of btcec/v2/schnorr. *)
From Verif Require Import Base BigInt NumTh FieldP AbGroup AbZ WGroup WCurve SecpField SecpFieldThm SecpPrimes Secp256k1 SecpCurve SecpJac PropSecp SecpMul SecpZero Curve Keygen Ckd Bip32 PropBip32 PropSecpCurve Ecdsa PropPubKey PropEcdsa Bip340.
From Coq Require Import Znumtheory.
Local Notation N := n256k1. Local Notation P := p256k1.
Local Opaque WCurve.eadd WCurve.eneg AbZ.zm.

(** ** points, parity, encodings *)
Lemma aff_range A : 0 <= fst (aff A) < P /\ 0 <= snd (aff A) < P.
Proof. destruct (ez_dec A) as [->|NA]; [cbn; split; split; reflexivity || discriminate|]. destruct (aff A) as [x y] eqn:E. destruct (aff_rep A x y NA E) as (X & Y & _). cbn [fst snd]. auto. Qed.
Lemma zero_b A : (fst (aff A) =? 0) && (snd (aff A) =? 0) = true <-> A = ezero.
Proof.
  split; [|intros ->; reflexivity]. intro H. apply andb_prop in H. destruct H as [H1 H2]. apply Z.eqb_eq in H1, H2. apply aff_none. rewrite (surjective_pairing (aff A)), H1, H2. reflexivity.
Qed.
Lemma zero_bf A : A <> ezero -> (fst (aff A) =? 0) && (snd (aff A) =? 0) = false.
Proof. intro NA. destruct (_ && _) eqn:E; [apply zero_b in E; congruence|reflexivity]. Qed.
Lemma lift_y_ok x y A : 0 <= x < P -> 0 <= y < P -> lift_y x y = Some A <-> A <> ezero /\ aff A = (x, y).
Proof.
  intros X Y. unfold lift_y. destruct (Z.eq_dec _ 0) as [H|H].
  - split.
    + intro E. assert (A = pt_of x y H) as -> by congruence. split; [intro K; apply (f_equal (@proj1_sig _ _)) in K; discriminate K|]. unfold aff, pt_of. cbn [proj1_sig]. now rewrite !fv_fz by assumption.
    + intros [_ E]. f_equal. apply aff_inj. rewrite E. unfold aff, pt_of. cbn [proj1_sig]. now rewrite !fv_fz by assumption.
  - split; [discriminate|]. intros [NA E]. destruct H. assert (O : on_curve x y) by (apply on_curve_point; exists A; auto). destruct O as (_ & _ & C). rewrite Zminus_mod, C, Z.sub_diag. reflexivity.
Qed.
Lemma lift_iff x b A : 0 <= x < P -> lift x b = Some A <-> A <> ezero /\ fst (aff A) = x /\ odd_y A = b.
Proof.
  intro X. unfold lift, odd_y. split.
  - destruct (decompress P 7 x b) as [y|] eqn:D; [|discriminate]. intro L. apply (decompress_inv P 7 prime_p256k1) in D. destruct D as [O Par]. rewrite Z.mod_small in O by exact X. apply on_ow in O. destruct O as (_ & Y & _).
    apply (lift_y_ok x y A X Y) in L. destruct L as [NA E]. rewrite E. auto.
  - intros (NA & EX & Par). destruct (aff A) as [x' y] eqn:E. cbn [fst snd] in *. subst x'. assert (O : on_curve x y) by (apply on_curve_point; exists A; auto). pose proof (proj1 (on_ow x y) O) as OW.
    pose proof (decompress_ok P 7 prime_p256k1 p_mod4 _ _ OW) as D. rewrite Par in D. rewrite D. apply (lift_y_ok x y A); [exact X|exact (proj1 (proj2 O))|auto].
Qed.
Lemma xb_len A : length (xb A) = 32%nat. Proof. apply be_fixed_length. Qed.
Lemma xb_val A : of_be (xb A) = fst (aff A).
Proof. unfold xb. apply of_be_be_fixed. destruct (aff_range A) as [X _]. rewrite p256. pose proof p_lt. lia. Qed.
Lemma parse33_cmp A : A <> ezero -> parse33 (cmp A) = Some A.
Proof.
  intro NA. unfold parse33, cmp. rewrite xb_len, xb_val. destruct (aff_range A) as [X _]. replace (fst (aff A) <? P) with true by lia. destruct (odd_y A) eqn:O; cbn [Nat.eqb andb].
  - change (bz (zb 3)) with 3. cbn [Z.eqb orb andb Pos.eqb]. apply lift_iff; auto.
  - change (bz (zb 2)) with 2. cbn [Z.eqb orb andb Pos.eqb]. apply lift_iff; auto.
Qed.
Lemma parse33_iff b A : parse33 b = Some A <-> A <> ezero /\ b = cmp A.
Proof.
  split; [|intros [NA ->]; apply parse33_cmp, NA]. unfold parse33. destruct b as [|f r]; [discriminate|]. destruct (Nat.eqb_spec (length r) 32) as [L|]; [|discriminate]. cbn [andb].
  destruct ((bz f =? 2) || (bz f =? 3)) eqn:F; [|discriminate]. cbn [andb]. destruct (Z.ltb_spec (of_be r) P) as [X|]; [|discriminate]. intro E. apply lift_iff in E; [|pose proof (of_be_range r); lia].
  destruct E as (NA & EX & O). split; [exact NA|]. unfold cmp. f_equal.
  - rewrite O. destruct (Z.eqb_spec (bz f) 3) as [F3|]; [rewrite <- (zb_bz f), F3; reflexivity|]. cbn [orb] in F. rewrite orb_false_r in F. apply Z.eqb_eq in F. rewrite <- (zb_bz f), F. reflexivity.
  - unfold xb. rewrite EX, <- L. symmetry. apply be_fixed_of_be.
Qed.
Lemma parse_xonly_iff b A : parse_xonly b = Some A <-> A <> ezero /\ odd_y A = false /\ b = xb A.
Proof.
  unfold parse_xonly. destruct (Nat.eqb_spec (length b) 32) as [L|L].
  - rewrite parse33_iff. unfold cmp. split; intros (NA & H).
    + split; [exact NA|]. destruct (odd_y A); [assert (B : bz (zb 2) = bz (zb 3)) by congruence; discriminate B|]. split; [reflexivity|congruence].
    + destruct H as [O ->]. rewrite O. auto.
  - split; [discriminate|]. intros (_ & _ & ->). destruct (L (xb_len A)).
Qed.
Lemma parse_jac_iff b A : parse_jac b = Some A <-> length b = 33%nat /\ (A <> ezero /\ b = cmp A \/ A = ezero /\ nth_error b 0 = Some (zb 0)).
Proof.
  unfold parse_jac. destruct (Nat.eqb_spec (length b) 33) as [L|L]; [|split; [discriminate|intros [? _]; contradiction]]. destruct b as [|f r]; [discriminate L|]. cbn [nth_error]. destruct (Z.eqb_spec (bz f) 0) as [F|F].
  - assert (f = zb 0) as -> by (rewrite <- (zb_bz f), F; reflexivity). split; [intro E; split; [exact L|right; split; congruence]|]. intros [_ [[NA E]|[-> _]]]; [|reflexivity]. exfalso. unfold cmp in E. assert (Q : bz (zb 0) = bz (zb (if odd_y A then 3 else 2))) by congruence. destruct (odd_y A); discriminate Q.
  - rewrite parse33_iff. split; [intros [NA E]; auto|]. intros [_ [H|[_ H]]]; [exact H|]. assert (f = zb 0) as -> by congruence. destruct F. reflexivity.
Qed.
Lemma cmp_len A : length (cmp A) = 33%nat. Proof. unfold cmp. cbn [length]. now rewrite xb_len. Qed.
Lemma ser_jac_len A : length (ser_jac A) = 33%nat. Proof. unfold ser_jac. destruct (_ && _); [reflexivity|apply cmp_len]. Qed.
Lemma parse_ser_jac A : parse_jac (ser_jac A) = Some A.
Proof.
  apply parse_jac_iff. split; [apply ser_jac_len|]. destruct (ez_dec A) as [->|NA]; [right; split; reflexivity|left]. split; [exact NA|]. unfold ser_jac. rewrite zero_bf by exact NA. reflexivity.
Qed.
Lemma p_odd : Z.odd P = true. Proof. reflexivity. Qed.
Lemma odd_neg A : A <> ezero -> odd_y (eneg A) = negb (odd_y A).
Proof.
  intro NA. destruct (aff A) as [x y] eqn:E. unfold odd_y. rewrite (aff_neg A x y NA E), E. cbn [snd]. rewrite Z.odd_sub, p_odd. destruct (Z.odd y); reflexivity.
Qed.
Lemma neg_neg (A : E) : eneg (eneg A) = A.
Proof. symmetry. apply (neg_u E eadd ezero eneg EC EA EI EV). rewrite EC. apply EV. Qed.
Lemma neg_zero : eneg ezero = ezero. Proof. apply (neg_0 E eadd ezero eneg EC EA EI EV). Qed.
Lemma xb_neg A : xb (eneg A) = xb A. Proof. unfold xb. now rewrite aff_neg_x. Qed.
Lemma same_x A B : A <> ezero -> B <> ezero -> xb A = xb B -> odd_y A = odd_y B -> A = B.
Proof. intros NA NB X O. assert (C : cmp A = cmp B) by (unfold cmp; rewrite X, O; reflexivity). pose proof (parse33_cmp A NA) as Q. pose proof (parse33_cmp B NB) as Q'. rewrite C in Q. assert (Some A = Some B) by (transitivity (parse33 (cmp B)); [symmetry; exact Q|exact Q']). congruence. Qed.

Section C64.
  Variable TH : bytes -> bytes -> bytes.
  Variable rfc : bytes -> bytes -> nat -> Z.
  Notation sverify := (sverify TH). Notation bverify := (bverify TH). Notation sign_with := (sign_with TH). Notation bsign := (bsign TH rfc).

  (** the sign-the-challenge equation of BIP-340, in terms of points: the specification *)
  Definition valid (sg : Z * Z) (m pk : bytes) : Prop :=
    length m = 32%nat /\ exists (A R : E) e, A <> ezero /\ Z.odd (snd (aff A)) = false /\ pk = be_fixed 32 (fst (aff A)) /\
      e = of_be (TH (str "BIP0340/challenge") (be_fixed 32 (fst sg) ++ pk ++ m)) /\ e < N /\
      R <> ezero /\ Z.odd (snd (aff R)) = false /\ fst (aff R) = fst sg /\ zm (snd sg) G = eadd R (zm e A).

  Lemma move s e (A R : E) : eadd (zm s G) (zm ((- e) mod N) A) = R <-> zm s G = eadd R (zm e A).
  Proof.
    rewrite zm_modN. split; intro H.
    - rewrite <- H, EA, <- ZMA. replace (- e + e) with 0 by ring. rewrite ZM0, EC. symmetry. apply EI.
    - rewrite H, EA, <- ZMA. replace (e + - e) with 0 by ring. rewrite ZM0, EC. apply EI.
  Qed.
  (** Verify accepts exactly the valid signatures; it is total by type *)
  Theorem C64_verify sg m pk : sverify sg m pk = true <-> valid sg m pk.
  Proof.
    destruct sg as [r s]. unfold Bip340.sverify, valid. cbn [fst snd]. destruct (Nat.eqb_spec (length m) 32) as [L|L]; [|split; [discriminate|intros [? _]; contradiction]]. cbn [negb].
    destruct (parse_xonly pk) as [A|] eqn:PA.
    - apply parse_xonly_iff in PA. destruct PA as (NA & OA & PK). unfold chal. change tag_chal with (str "BIP0340/challenge"). set (e := of_be (TH (str "BIP0340/challenge") (be_fixed 32 r ++ xb A ++ m))).
      set (R := eadd (zm s G) (zm ((- e) mod N) A)). split.
      + destruct (Z.leb_spec N e) as [|LE]; [discriminate|]. destruct (_ && _) eqn:ZB; [discriminate|]. destruct (odd_y R) eqn:OR; [discriminate|]. intro EX. apply Z.eqb_eq in EX. split; [exact L|]. exists A, R, e.
        split; [exact NA|]. split; [exact OA|]. split; [exact PK|]. split; [subst pk; reflexivity|]. split; [exact LE|]. split; [intro RZ; apply zero_b in RZ; rewrite RZ in ZB; discriminate ZB|]. split; [exact OR|]. split; [congruence|]. apply move. reflexivity.
      + intros (_ & A' & R' & e' & NA' & OA' & PK' & EE & LE & NR & OR & XR & EQ). assert (A' = A) as -> by (apply same_x; [assumption..|unfold xb in *; congruence|unfold odd_y in *; congruence]).
        assert (e' = e) as -> by (rewrite EE, PK; reflexivity). replace (N <=? e) with false by lia. assert (R = R') as -> by (apply move; exact EQ). rewrite zero_bf by exact NR. unfold odd_y. rewrite OR. apply Z.eqb_eq. congruence.
    - split; [discriminate|]. intros (_ & A & R & e & NA & OA & PK & _). assert (parse_xonly pk = Some A) by (apply parse_xonly_iff; auto). congruence.
  Qed.
  (** the key is used by its x coordinate only *)
  Theorem C64_sign_of_y sg m A : bverify sg m (eneg A) = bverify sg m A.
  Proof. unfold Bip340.bverify. now rewrite xb_neg. Qed.

  Definition s_of (d k e : Z) : Z := (e * d + (if odd_y (zm k G) then (- k) mod N else k)) mod N.
  Lemma nonce_point k : 0 < k < N -> let k' := if odd_y (zm k G) then (- k) mod N else k in zm k' G <> ezero /\ odd_y (zm k' G) = false /\ fst (aff (zm k' G)) = fst (aff (zm k G)).
  Proof.
    intros K. pose proof (kg_nz k K) as NZ. cbv zeta. destruct (odd_y (zm k G)) eqn:O; [|auto]. rewrite zm_modN, ZMO. split; [|split; [rewrite odd_neg by exact NZ; rewrite O; reflexivity|apply aff_neg_x]].
    apply neg_nz, NZ.
  Qed.
  Lemma sign_valid d k A m : 0 < k < N -> zm d G <> ezero -> odd_y (zm d G) = false -> xb A = xb (zm d G) -> length m = 32%nat ->
    let r := fst (aff (zm k G)) in let e := of_be (TH (str "BIP0340/challenge") (be_fixed 32 r ++ xb A ++ m)) in e < N -> valid (r, s_of d k e) m (xb A).
  Proof.
    intros K NZ O X L r e LE. destruct (nonce_point k K) as (NR & OR & XR). cbv zeta in *. split; [exact L|]. exists (zm d G), (zm (if odd_y (zm k G) then (- k) mod N else k) G), e. cbn [fst snd].
    split; [exact NZ|]. split; [exact O|]. split; [exact X|]. split; [reflexivity|]. split; [exact LE|]. split; [exact NR|]. split; [exact OR|]. split; [exact XR|].
    unfold s_of. rewrite zm_modN, ZMA, <- ZMM, EC. reflexivity.
  Qed.
  Lemma sign_eq d k A m fast : 0 < k < N -> zm d G <> ezero -> odd_y (zm d G) = false -> xb A = xb (zm d G) -> length m = 32%nat ->
    let r := fst (aff (zm k G)) in let e := of_be (TH (str "BIP0340/challenge") (be_fixed 32 r ++ xb A ++ m)) in
    sign_with d k A m fast = if N <=? e then None else Some (r, s_of d k e).
  Proof.
    intros K NZ O X L r e. unfold Bip340.sign_with, chal. change tag_chal with (str "BIP0340/challenge"). fold r. fold e. destruct (Z.leb_spec N e) as [|LE]; [reflexivity|]. fold (s_of d k e). destruct fast; [reflexivity|].
    rewrite (proj2 (C64_verify _ _ _)); [reflexivity|]. apply sign_valid; assumption.
  Qed.
  Definition norm_key (d : Z) : Z := if odd_y (zm d G) then (- d) mod N else d.
  Lemma norm_key_ok d : 0 < d < N -> 0 < norm_key d < N /\ zm (norm_key d) G <> ezero /\ odd_y (zm (norm_key d) G) = false /\ xb (zm d G) = xb (zm (norm_key d) G).
  Proof.
    intro D. destruct (nonce_point d D) as (NZ & O & X). cbv zeta in *. unfold norm_key. split; [|split; [exact NZ|split; [exact O|unfold xb; congruence]]].
    destruct (odd_y (zm d G)); [|exact D]. replace ((- d) mod N) with (N - d); [lia|]. apply (Z.mod_unique_pos _ _ (-1)); lia.
  Qed.
  Lemma loop_valid fuel : forall i d A m fast sg, (forall i, 0 < rfc (be_fixed 32 d) m i < N) -> zm d G <> ezero -> odd_y (zm d G) = false -> xb A = xb (zm d G) -> length m = 32%nat ->
    sign_loop TH rfc fuel i d A m fast = Some sg -> valid sg m (xb A).
  Proof.
    induction fuel as [|fuel IH]; intros i d A m fast sg RF NZ O X L E; cbn [sign_loop] in E; [discriminate E|].
    rewrite (sign_eq d _ A m fast (RF i) NZ O X L) in E. destruct (Z.leb_spec N (of_be (TH (str "BIP0340/challenge") (be_fixed 32 (fst (aff (zm (rfc (be_fixed 32 d) m i) G))) ++ xb A ++ m)))) as [|LE]; [exact (IH _ _ _ _ _ _ RF NZ O X L E)|].
    assert (sg = (fst (aff (zm (rfc (be_fixed 32 d) m i) G)), s_of d (rfc (be_fixed 32 d) m i) (of_be (TH (str "BIP0340/challenge") (be_fixed 32 (fst (aff (zm (rfc (be_fixed 32 d) m i) G))) ++ xb A ++ m))))) as -> by congruence.
    apply sign_valid; auto.
  Qed.
  (** Whatever Sign returns verifies under the signer's key, for every key, message, auxiliary data, options and nonce function into [1, N-1]. *)
  Theorem C64_sign_verifies fuel d m aux fast sg d' : 0 < d < N -> (forall b i, 0 < rfc b m i < N) -> bsign fuel d m aux fast = (Some (Some sg), d') -> bverify sg m (zm d G) = true.
  Proof.
    intros D RF E. destruct (norm_key_ok d D) as (D' & NZ & O & X). unfold Bip340.bsign in E. destruct (Nat.eqb_spec (length m) 32) as [L|]; [|discriminate E]. cbn [negb] in E. replace (d =? 0) with false in E by lia. fold (norm_key d) in E.
    unfold Bip340.bverify. apply C64_verify. rewrite X. destruct aux as [a|].
    - set (k := of_be (TH tag_nonce (xor (TH tag_aux a) (be_fixed 32 (norm_key d)) ++ xb (zm d G) ++ m)) mod N) in E. destruct (Z.eqb_spec k 0) as [|K]; [discriminate E|]. assert (KR : 0 < k < N) by (pose proof (Z.mod_pos_bound (of_be (TH tag_nonce (xor (TH tag_aux a) (be_fixed 32 (norm_key d)) ++ xb (zm d G) ++ m))) N n_pos); unfold k in *; lia).
      clearbody k. assert (E' : sign_with (norm_key d) k (zm d G) m fast = Some sg) by congruence. rewrite (sign_eq (norm_key d) k (zm d G) m fast KR NZ O X L) in E'. cbv zeta in E'. rewrite X in E'.
      destruct (Z.leb_spec N (of_be (TH (str "BIP0340/challenge") (be_fixed 32 (fst (aff (zm k G))) ++ xb (zm (norm_key d) G) ++ m)))) as [|LE]; [discriminate E'|].
      assert (sg = (fst (aff (zm k G)), s_of (norm_key d) k (of_be (TH (str "BIP0340/challenge") (be_fixed 32 (fst (aff (zm k G))) ++ xb (zm (norm_key d) G) ++ m))))) as -> by congruence. apply sign_valid; auto.
    - destruct (sign_loop TH rfc fuel 0 (norm_key d) (zm d G) m fast) as [sg'|] eqn:EL; [|discriminate E]. assert (sg' = sg) as -> by (cbn [option_map] in E; congruence). rewrite <- X. apply (loop_valid fuel 0 (norm_key d) (zm d G) m fast); auto.
  Qed.
  (** With given nonce data Sign fails only if the message has the wrong length, the key or the nonce is 0, or the challenge hash is not below N. *)
  Theorem C64_sign_fails fuel d m a fast : 0 < d < N -> fst (bsign fuel d m (Some a) fast) = Some None <->
    length m <> 32%nat \/ let k := of_be (TH (str "BIP0340/nonce") (xor (TH (str "BIP0340/aux") a) (be_fixed 32 (norm_key d)) ++ xb (zm d G) ++ m)) mod N in
      k = 0 \/ N <= of_be (TH (str "BIP0340/challenge") (be_fixed 32 (fst (aff (zm k G))) ++ xb (zm d G) ++ m)).
  Proof.
    intro D. destruct (norm_key_ok d D) as (D' & NZ & O & X). unfold Bip340.bsign. destruct (Nat.eqb_spec (length m) 32) as [L|L]; [|cbn [negb fst]; split; [intros _; left; exact L|reflexivity]]. cbn [negb]. replace (d =? 0) with false by lia. fold (norm_key d). change tag_nonce with (str "BIP0340/nonce"). change tag_aux with (str "BIP0340/aux"). cbv zeta.
    set (k := of_be (TH (str "BIP0340/nonce") (xor (TH (str "BIP0340/aux") a) (be_fixed 32 (norm_key d)) ++ xb (zm d G) ++ m)) mod N). cbn [fst]. destruct (Z.eqb_spec k 0) as [K|K]; [tauto|].
    assert (KR : 0 < k < N) by (pose proof (Z.mod_pos_bound (of_be (TH (str "BIP0340/nonce") (xor (TH (str "BIP0340/aux") a) (be_fixed 32 (norm_key d)) ++ xb (zm d G) ++ m))) N n_pos); unfold k in *; lia). clearbody k.
    rewrite (sign_eq (norm_key d) k (zm d G) m fast KR NZ O X L). cbv zeta. destruct (Z.leb_spec N (of_be (TH (str "BIP0340/challenge") (be_fixed 32 (fst (aff (zm k G))) ++ xb (zm d G) ++ m)))); split; intro Q; [right; right; assumption|reflexivity|discriminate Q|]. exfalso. destruct Q as [Q|[Q|Q]]; [tauto|tauto|lia].
  Qed.
  (** Sign changes the caller's private key: a key whose point has odd y is replaced by its negative.  The x coordinate stays, so signatures are for the same x-only key and repeating the call gives the same signature. *)
  Theorem C64_key_replaced_refuted fuel d m aux fast : 0 < d < N -> length m = 32%nat -> odd_y (zm d G) = true -> snd (bsign fuel d m aux fast) = N - d /\ N - d <> d.
  Proof.
    intros D L O. unfold Bip340.bsign. rewrite L. cbn [Nat.eqb negb]. replace (d =? 0) with false by lia. rewrite O. assert (Q : (- d) mod N = N - d) by (symmetry; apply (Z.mod_unique_pos _ _ (-1)); lia). rewrite Q.
    split; [destruct aux; reflexivity|]. intro H. assert (OD : Z.odd N = true) by reflexivity. replace N with (2 * d) in OD by lia. rewrite Z.odd_mul in OD. discriminate OD.
  Qed.
  Theorem C64_repeat fuel d m aux fast : 0 < d < N -> let '(r, d') := bsign fuel d m aux fast in bsign fuel d' m aux fast = (r, d') /\ xb (zm d' G) = xb (zm d G).
  Proof.
    intro D. destruct (norm_key_ok d D) as (D' & NZ & O & X). destruct (bsign fuel d m aux fast) as [r d'] eqn:E. pose proof E as E0. unfold Bip340.bsign in E. destruct (Nat.eqb_spec (length m) 32) as [L|L]; cbn [negb] in E.
    2:{ assert (d' = d) as -> by congruence. split; [exact E0|reflexivity]. }
    replace (d =? 0) with false in E by lia. fold (norm_key d) in E. assert (d' = norm_key d) as -> by (destruct aux; congruence). split; [|now symmetry].
    unfold Bip340.bsign. rewrite L. cbn [Nat.eqb negb]. replace (norm_key d =? 0) with false by lia. rewrite O.
    assert (S : forall k, sign_with (norm_key d) k (zm (norm_key d) G) m fast = sign_with (norm_key d) k (zm d G) m fast) by (intro k; unfold Bip340.sign_with, chal; rewrite X; reflexivity).
    destruct aux as [a|].
    - rewrite <- E. rewrite <- X, S. reflexivity.
    - rewrite <- E. f_equal. f_equal. generalize 0%nat. clear -S. induction fuel as [|fuel IH]; intro i; cbn [sign_loop]; [reflexivity|]. rewrite S, IH. reflexivity.
  Qed.
  (** Two signatures of one key with one nonce and different challenges give the private key. *)
  Theorem C64_nonce_reuse_reveals d k A m m' fast r s s' : let e m := of_be (TH (str "BIP0340/challenge") (be_fixed 32 r ++ xb A ++ m)) in
    sign_with d k A m fast = Some (r, s) -> sign_with d k A m' fast = Some (r, s') -> (e m - e m') mod N <> 0 ->
    exists w, invm ((e m - e m') mod N) N = Some w /\ (w * (s - s')) mod N = d mod N.
  Proof.
    intros e S1 S2 NE. assert (SE : forall m s, sign_with d k A m fast = Some (r, s) -> s = (e m * d + (if odd_y (zm k G) then (- k) mod N else k)) mod N).
    { clear. intros m s H. unfold Bip340.sign_with, chal in H. change tag_chal with (str "BIP0340/challenge") in H. destruct (Z.leb _ _) in H; [discriminate H|]. destruct fast.
      - assert (fst (aff (zm k G)) = r) as X by congruence. rewrite X in H. unfold e. congruence.
      - destruct (sverify _ _ _) in H; [|discriminate H]. assert (fst (aff (zm k G)) = r) as X by congruence. rewrite X in H. unfold e. congruence. }
    apply SE in S1, S2. clear SE. set (q := if odd_y (zm k G) then (- k) mod N else k) in *. clearbody q. pose proof (Z.mod_pos_bound (e m - e m') N n_pos) as B. destruct (inv_ok ((e m - e m') mod N)) as (w & W & _ & C); [lia|].
    exists w. split; [exact W|]. apply cong_eq; [exact n_pos|]. rewrite S1, S2. rewrite !(cong_mod N (_ + _)) by exact n_pos. rewrite (cong_mod N (e m - e m')) in C by exact n_pos.
    replace (w * (e m * d + q - (e m' * d + q))) with (((e m - e m') * w) * d) by ring. rewrite C. replace (1 * d) with d by ring. reflexivity.
  Qed.
End C64.
(** encodings: 64 bytes, one per signature; exactly the pairs with r < P and s < N parse *)
Theorem C64_encoding b r s : bparse b = Some (r, s) <-> 0 <= r < P /\ 0 <= s < N /\ b = bser (r, s).
Proof.
  unfold bparse, bser. cbn [fst snd]. split.
  - destruct (Nat.ltb_spec (length b) 64) as [|L1]; [discriminate|]. destruct (Nat.ltb_spec 64 (length b)) as [|L2]; [discriminate|]. destruct (Z.leb_spec P (of_be (firstn 32 b))) as [|R]; [discriminate|]. destruct (Z.leb_spec N (of_be (skipn 32 b))) as [|S]; [discriminate|].
    intro E. assert (of_be (firstn 32 b) = r /\ of_be (skipn 32 b) = s) as [E1 E2] by (split; congruence). pose proof (of_be_range (firstn 32 b)). pose proof (of_be_range (skipn 32 b)). split; [lia|]. split; [lia|].
    assert (L3 : length (firstn 32 b) = 32%nat) by (rewrite firstn_length; lia). assert (L4 : length (skipn 32 b) = 32%nat) by (rewrite skipn_length; lia).
    rewrite <- E1, <- E2. pose proof (be_fixed_of_be (firstn 32 b)) as F1. pose proof (be_fixed_of_be (skipn 32 b)) as F2. rewrite L3 in F1. rewrite L4 in F2. rewrite F1, F2. symmetry. apply firstn_skipn.
  - intros (R & S & ->). assert (LN : N < 2 ^ 256) by reflexivity. rewrite app_length, !be_fixed_length. cbn [Nat.add Nat.ltb Nat.leb]. pose proof p_lt.
    rewrite firstn_app, be_fixed_length, Nat.sub_diag, firstn_O, app_nil_r, firstn_all2 by (rewrite be_fixed_length; lia). rewrite skipn_app, be_fixed_length, Nat.sub_diag, skipn_O, skipn_all2 by (rewrite be_fixed_length; lia). cbn [app].
    rewrite !of_be_be_fixed by (rewrite p256; lia). replace (P <=? r) with false by lia. replace (N <=? s) with false by lia. reflexivity.
Qed.
Theorem C64_encoding_length sg : length (bser sg) = 64%nat. Proof. unfold bser. rewrite app_length, !be_fixed_length. reflexivity. Qed.
(** x-only keys: accepted exactly the 32-byte x coordinates of points; the point returned has even y *)
Theorem C64_xonly b x y : (exists A, parse_xonly b = Some A /\ aff A = (x, y)) <-> on_curve x y /\ Z.even y = true /\ b = be_fixed 32 x.
Proof.
  split.
  - intros (A & H & E). apply parse_xonly_iff in H. destruct H as (NA & O & ->). unfold odd_y in O. unfold xb. rewrite E in *. cbn [fst snd] in *. split; [apply on_curve_point; exists A; auto|]. split; [rewrite <- Z.negb_odd, O; reflexivity|reflexivity].
  - intros (O & EV' & ->). apply on_curve_point in O. destruct O as (A & NA & E). exists A. split; [|exact E]. apply parse_xonly_iff. unfold odd_y, xb. rewrite E. cbn [fst snd]. split; [exact NA|]. split; [rewrite <- Z.negb_even, EV'; reflexivity|reflexivity].
Qed.
(** the hypotheses are met: key 1, any message of 32 bytes, a hash with value 1 *)
Theorem C64_example m : length m = 32%nat -> exists sg, bsign (fun _ _ => be_fixed 32 1) (fun _ _ _ => 1) 1 1 m None false = (Some (Some sg), 1) /\ bverify (fun _ _ => be_fixed 32 1) sg m G = true.
Proof.
  intro L. set (TH := fun _ _ : bytes => be_fixed 32 1). set (rfc := fun (_ _ : bytes) (_ : nat) => 1). assert (G1 : zm 1 G = G) by apply ZM1. assert (OG : odd_y G = false) by (unfold odd_y; rewrite aff_G; reflexivity).
  assert (S : sign_with TH 1 1 (zm 1 G) m false = Some (fst (aff (zm 1 G)), s_of 1 1 (of_be (be_fixed 32 1)))).
  { rewrite (sign_eq TH rfc 1 1 (zm 1 G) m false); [reflexivity|split; reflexivity|rewrite G1; exact g_nz|rewrite G1; exact OG|reflexivity|exact L]. }
  assert (E : bsign TH rfc 1 1 m None false = (Some (Some (fst (aff (zm 1 G)), s_of 1 1 (of_be (be_fixed 32 1)))), 1)).
  { unfold bsign. rewrite L. cbn [Nat.eqb negb]. change (1 =? 0) with false. cbv iota. replace (odd_y (zm 1 G)) with false by (rewrite G1; now symmetry). cbn [sign_loop]. unfold rfc at 1. rewrite S. reflexivity. }
  eexists. split; [exact E|]. rewrite <- G1 at 2. apply (C64_sign_verifies TH rfc 1 1 m None false _ 1); [split; reflexivity|intros; split; reflexivity|exact E].
Qed.
