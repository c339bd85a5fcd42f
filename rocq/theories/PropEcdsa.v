(** PropEcdsa.v -- C60: ECDSA of btcec/v1 (privkey.go, signature.go) on secp256k1: signing, verification, key recovery. *)
From Verif Require Import Base BigInt NumTh FieldP AbGroup AbZ WGroup WCurve SecpField SecpFieldThm SecpPrimes Secp256k1 SecpCurve SecpJac PropSecp SecpMul SecpZero Curve PropSecpCurve Ecdsa PropPubKey.
From Coq Require Import Znumtheory.
Local Notation N := n256k1. Local Notation P := p256k1.

(** ** the group, with scalars modulo N *)
Lemma n_pos : 0 < N. Proof. reflexivity. Qed.
Lemma zm_cong a b A : cong N a b -> zm a A = zm b A.
Proof. intro H. apply cong_eq in H; [|exact n_pos]. rewrite <- (proj2 (C56_reduce A a)), <- (proj2 (C56_reduce A b)), H. reflexivity. Qed.
Lemma zm_modN a A : zm (a mod N) A = zm a A. Proof. exact (proj2 (C56_reduce A a)). Qed.
Lemma inv_ok k : 0 < k < N -> exists w, invm k N = Some w /\ 0 <= w < N /\ cong N (k * w) 1.
Proof.
  intro K. apply invm_some; [exact n_pos|]. apply Zgcd_1_rel_prime. apply rel_prime_sym. apply prime_rel_prime; [exact prime_n256k1|]. intros [c Hc]. assert (c = 0 \/ 1 <= c \/ c <= -1) by lia. nia.
Qed.
Lemma bm T k : table_ok T -> 0 <= k -> s_base_mul T (to_be k) = Some (aff (zm k G)).
Proof. intros HT K. rewrite (s_base_mul_ok T _ HT), of_be_to_be_nonneg by exact K. reflexivity. Qed.
Lemma sm A k : 0 <= k -> s_mul (aff A) (to_be k) = aff (zm k A).
Proof.
  intro K. destruct (ez_dec A) as [->|NA]; [rewrite ZMZ; exact (s_mul_zero _)|]. rewrite s_mul_ok by exact NA. now rewrite of_be_to_be_nonneg.
Qed.
Lemma modp k : 0 <= k mod N. Proof. apply Z.mod_pos_bound. reflexivity. Qed.
Lemma aff_neg A x y : A <> ezero -> aff A = (x, y) -> aff (eneg A) = (x, P - y).
Proof.
  intros NA H. destruct (aff_rep A x y NA H) as (X & Y & YN & _). unfold aff in *. unfold WCurve.eneg, gneg. cbn [proj1_sig].
  destruct (proj1_sig A) as [[a b]|] eqn:EA'; [|destruct NA; apply e_eq; exact EA']. cbn [wneg].
  assert (fv P a = x /\ fv P b = y) as [<- EB] by (split; congruence). f_equal. change (fv P (f_opp P b)) with ((- fv P b) mod P). rewrite EB. symmetry. apply (Z.mod_unique_pos _ _ (-1)); lia.
Qed.
Lemma aff_neg_x A : fst (aff (eneg A)) = fst (aff A).
Proof.
  destruct (ez_dec A) as [->|NA]; [rewrite (neg_0 E eadd ezero eneg EC EA EI EV); reflexivity|]. destruct (aff A) as [x y] eqn:H. rewrite (aff_neg A x y NA H). reflexivity.
Qed.
Lemma neg_nz A : A <> ezero -> eneg A <> ezero.
Proof. intros H K. apply H. rewrite <- (neg_inv E eadd ezero eneg EC EA EI EV A), K. apply (neg_0 E eadd ezero eneg EC EA EI EV). Qed.
Lemma zm_ninv a A : zm a (eneg A) = zm (- a) A. Proof. rewrite ZMN, ZMO. reflexivity. Qed.
Lemma inv_scale s w A B : cong N (s * w) 1 -> zm s A = B <-> A = zm w B.
Proof.
  intro H. split; [intros <-|intros ->]; rewrite <- ZMM; symmetry.
  - rewrite <- (ZM1 A) at 2. apply zm_cong. rewrite Z.mul_comm. exact H.
  - rewrite <- (ZM1 B) at 1. apply zm_cong. symmetry. exact H.
Qed.
Lemma sgn_pos r : (Z.sgn r <=? 0) = (r <=? 0). Proof. pose proof (Z.sgn_spec r). lia. Qed.
Lemma sgn_zero r : (Z.sgn r =? 0) = (r =? 0). Proof. pose proof (Z.sgn_spec r). lia. Qed.
Lemma h_nonneg h : 0 <= hash_to_int h. Proof. apply of_be_range. Qed.

Section C60.
  Variable T : table.
  Hypothesis HT : table_ok T.

  (** ** Verify *)
  Lemma verify_eq A h r s : 0 < r < N -> 0 < s < N -> exists w, cong N (s * w) 1 /\
    verify T (aff A) h (r, s) = let R := zm w (eadd (zm (hash_to_int h) G) (zm r A)) in Ret (negb ((fst (aff R) =? 0) && (snd (aff R) =? 0)) && (fst (aff R) mod N =? r)).
  Proof.
    intros Hr Hs. destruct (inv_ok s Hs) as (w & EW & W & CW). exists w. split; [exact CW|]. unfold verify. rewrite !sgn_pos.
    replace (r <=? 0) with false by lia. replace (s <=? 0) with false by lia. replace (N <=? r) with false by lia. replace (N <=? s) with false by lia. cbn [orb]. rewrite EW. cbn [deref obind].
    rewrite (bm T _ HT) by apply modp. cbn [deref obind]. rewrite sm by apply modp. rewrite s_add_ok, !zm_modN. cbv zeta.
    replace (eadd (zm (hash_to_int h * w) G) (zm (w * r) A)) with (zm w (eadd (zm (hash_to_int h) G) (zm r A))).
    - destruct (aff (zm w _)) as [x y]. cbn [fst snd]. rewrite !sgn_zero. destruct ((x =? 0) && (y =? 0)); reflexivity.
    - rewrite ZMS, <- !ZMM. now rewrite (Z.mul_comm w (hash_to_int h)).
  Qed.
  Lemma aff_zero_b R : (fst (aff R) =? 0) && (snd (aff R) =? 0) = true <-> R = ezero.
  Proof.
    split; [|intros ->; reflexivity]. intro H. apply andb_prop in H as [H1 H2]. apply Z.eqb_eq in H1, H2. apply aff_none. destruct (aff R); cbn [fst snd] in *. congruence.
  Qed.
  (** Verify accepts exactly the pairs r, s in [1, N-1] for which some point R with x coordinate r modulo N has s R = e G + r Q; it never panics *)
  Theorem C60_verify A h r s : verify T (aff A) h (r, s) = Ret true <->
    0 < r < N /\ 0 < s < N /\ exists R, R <> ezero /\ fst (aff R) mod N = r /\ zm s R = eadd (zm (hash_to_int h) G) (zm r A).
  Proof.
    assert (OUT : ~ (0 < r < N /\ 0 < s < N) -> verify T (aff A) h (r, s) = Ret false).
    { intro H. unfold verify. rewrite !sgn_pos. destruct (Z.leb_spec r 0); [reflexivity|]. destruct (Z.leb_spec s 0); [reflexivity|]. cbn [orb]. destruct (Z.leb_spec N r); [reflexivity|]. destruct (Z.leb_spec N s); [reflexivity|]. lia. }
    destruct (Z_lt_dec 0 r); [destruct (Z_lt_dec r N); [destruct (Z_lt_dec 0 s); [destruct (Z_lt_dec s N)|]|]|];
      try (rewrite OUT by lia; split; [discriminate|intros (A1 & A2 & _); lia]).
    destruct (verify_eq A h r s ltac:(lia) ltac:(lia)) as (w & CW & ->). cbv zeta. split.
    - intro H. assert (H' : negb ((fst (aff (zm w (eadd (zm (hash_to_int h) G) (zm r A)))) =? 0) && (snd (aff (zm w (eadd (zm (hash_to_int h) G) (zm r A)))) =? 0)) && (fst (aff (zm w (eadd (zm (hash_to_int h) G) (zm r A)))) mod N =? r) = true) by congruence. clear H.
      apply andb_prop in H' as [H1 H2]. split; [lia|]. split; [lia|]. eexists. split; [|split; [apply Z.eqb_eq in H2; exact H2|]].
      + intro K. apply aff_zero_b in K. rewrite K in H1. discriminate H1.
      + apply (inv_scale s w _ _ CW). reflexivity.
    - intros (_ & _ & R & NR & XR & E). apply (inv_scale s w _ _ CW) in E. rewrite <- E. rewrite XR, Z.eqb_refl, andb_true_r.
      destruct ((fst (aff R) =? 0) && (snd (aff R) =? 0)) eqn:K; [|reflexivity]. destruct NR. apply aff_zero_b. exact K.
  Qed.
  Theorem C60_verify_total A h rs : exists b, verify T (aff A) h rs = Ret b.
  Proof.
    destruct rs as [r s]. destruct (Z_lt_dec 0 r); [destruct (Z_lt_dec r N); [destruct (Z_lt_dec 0 s); [destruct (Z_lt_dec s N)|]|]|];
      try (exists false; unfold verify; rewrite !sgn_pos; destruct (Z.leb_spec r 0); [reflexivity|]; destruct (Z.leb_spec s 0); [reflexivity|]; cbn [orb]; destruct (Z.leb_spec N r); [reflexivity|]; destruct (Z.leb_spec N s); [reflexivity|]; lia).
    destruct (verify_eq A h r s ltac:(lia) ltac:(lia)) as (w & _ & ->). cbv zeta. eauto.
  Qed.
  (** a signature can be turned into another valid one: N - s instead of s *)
  Theorem C60_malleable A h r s : verify T (aff A) h (r, s) = Ret true <-> verify T (aff A) h (r, N - s) = Ret true.
  Proof.
    assert (D : forall s, verify T (aff A) h (r, s) = Ret true -> verify T (aff A) h (r, N - s) = Ret true).
    { clear s. intros s H. apply C60_verify in H as (Hr & Hs & R & NR & XR & E). apply C60_verify. split; [exact Hr|]. split; [lia|]. exists (eneg R). split; [exact (neg_nz R NR)|].
      rewrite aff_neg_x. split; [exact XR|]. rewrite <- E, zm_ninv. apply zm_cong. exists (-1). ring. }
    split; [apply D|]. intro H. apply D in H. replace (N - (N - s)) with s in H by ring. exact H.
  Qed.

  (** ** signing *)
  Lemma half_lt : 2 * half_order < N /\ N <= 2 * half_order + 1. Proof. split; [reflexivity|apply Z.leb_le; reflexivity]. Qed.
  Lemma sign_eq d h k : 0 < k < N -> exists inv, cong N (k * inv) 1 /\ sign_nonce T d h k =
    let r := fst (aff (zm k G)) mod N in let s0 := ((d * r + hash_to_int h) * inv) mod N in let s := if half_order <? s0 then N - s0 else s0 in
    Ret (if (r =? 0) || (s =? 0) then None else Some (r, s)).
  Proof.
    intro K. destruct (inv_ok k K) as (w & EW & W & CW). exists w. split; [exact CW|]. unfold sign_nonce. rewrite (bm T k HT) by lia. cbn [deref obind]. rewrite EW. cbn [deref obind]. cbv zeta. rewrite !sgn_zero.
    destruct (fst (aff (zm k G)) mod N =? 0); [reflexivity|]. cbn [orb]. destruct (_ =? 0); reflexivity.
  Qed.
  (** for every private number, message and nonce: signing does not panic, what it returns verifies under the public key of the number,
      and s is the smaller of the two *)
  Lemma sign_sound d h k r s : 0 < k < N -> sign_nonce T d h k = Ret (Some (r, s)) ->
    0 < r < N /\ 0 < s <= half_order /\ r = fst (aff (zm k G)) mod N /\ exists R, (R = zm k G \/ R = eneg (zm k G)) /\ zm s R = eadd (zm (hash_to_int h) G) (zm r (zm d G)).
  Proof.
    intros K H. destruct (sign_eq d h k K) as (inv & CI & E). rewrite E in H. clear E. cbv zeta in H. set (r0 := fst (aff (zm k G)) mod N) in *. set (s0 := ((d * r0 + hash_to_int h) * inv) mod N) in *.
    assert (R0 : 0 <= r0 < N) by (apply Z.mod_pos_bound; reflexivity). assert (S0 : 0 <= s0 < N) by (apply Z.mod_pos_bound; reflexivity). pose proof half_lt as [HL1 HL2].
    destruct (Z.eqb_spec r0 0); [discriminate H|]. cbn [orb] in H. destruct (Z.eqb_spec (if half_order <? s0 then N - s0 else s0) 0) as [|SN]; [discriminate H|].
    assert (r = r0 /\ s = if half_order <? s0 then N - s0 else s0) as [-> ->] by (split; congruence). clear H. split; [lia|].
    assert (CS : cong N (s0 * k) (d * r0 + hash_to_int h)).
    { unfold s0. rewrite (cong_mod N _ n_pos). replace ((d * r0 + hash_to_int h) * inv * k) with ((d * r0 + hash_to_int h) * (k * inv)) by ring. rewrite CI. rewrite Z.mul_1_r. reflexivity. }
    assert (ER : zm (d * r0 + hash_to_int h) G = eadd (zm (hash_to_int h) G) (zm r0 (zm d G))) by (rewrite <- ZMM, <- ZMA; f_equal; ring).
    destruct (Z.ltb_spec half_order s0) as [L|L].
    - split; [lia|]. split; [reflexivity|]. exists (eneg (zm k G)). split; [now right|]. rewrite zm_ninv, <- ZMM, <- ER. apply zm_cong. rewrite <- CS. exists (- k). ring.
    - split; [lia|]. split; [reflexivity|]. exists (zm k G). split; [now left|]. rewrite <- ZMM, <- ER. apply zm_cong. exact CS.
  Qed.
  Lemma kg_nz k : 0 < k < N -> zm k G <> ezero. Proof. intros K H. apply (proj2 (proj2 C56_base_point)) in H. rewrite Z.mod_small in H by lia. lia. Qed.
  Theorem C60_sign_verifies d h k r s : 0 < k < N -> sign_nonce T d h k = Ret (Some (r, s)) -> 0 < r < N /\ 0 < s <= half_order /\ verify T (aff (zm d G)) h (r, s) = Ret true.
  Proof.
    intros K H. destruct (sign_sound d h k r s K H) as (Hr & Hs & XR & R & CR & E). split; [exact Hr|]. split; [exact Hs|]. pose proof half_lt. apply C60_verify. split; [exact Hr|]. split; [lia|].
    exists R. pose proof (kg_nz k K). split; [destruct CR as [-> | ->]; auto using neg_nz|]. split; [|exact E]. destruct CR as [-> | ->]; [|rewrite aff_neg_x]; now symmetry.
  Qed.
  (** signing fails only for a nonce whose point has x coordinate 0 modulo N, or when s would be 0 *)
  Theorem C60_sign_fails d h k : 0 < k < N -> sign_nonce T d h k = Ret None <-> fst (aff (zm k G)) mod N = 0 \/ (d * (fst (aff (zm k G)) mod N) + hash_to_int h) mod N = 0.
  Proof.
    intro K. destruct (sign_eq d h k K) as (inv & CI & ->). cbv zeta. set (r0 := fst (aff (zm k G)) mod N). set (t := d * r0 + hash_to_int h). assert (S0 : 0 <= (t * inv) mod N < N) by (apply Z.mod_pos_bound; reflexivity).
    assert (Z0 : (t * inv) mod N = 0 <-> t mod N = 0).
    { split; intro H.
      - assert (C : cong N t 0). { rewrite <- (Z.mul_1_r t), <- CI. replace (t * (k * inv)) with (k * (t * inv)) by ring. assert (Q : cong N (t * inv) 0) by (apply cong_eq; [exact n_pos|]; rewrite H; reflexivity). rewrite Q. rewrite Z.mul_0_r. reflexivity. }
        apply cong_eq in C; [|exact n_pos]. rewrite C. reflexivity.
      - rewrite <- Zmult_mod_idemp_l, H. reflexivity. }
    pose proof half_lt. destruct (Z.eqb_spec r0 0) as [E|E]; cbn [orb]; [split; auto|]. destruct (Z.ltb_spec half_order ((t * inv) mod N)) as [L|L]; (match goal with |- context [?a =? 0] => destruct (Z.eqb_spec a 0) as [E2|E2] end; [split; [intros _; right; apply Z0; lia|auto]|split; [discriminate|intros [?|Q]; [lia|apply Z0 in Q; lia]]]).
  Qed.
  (** the nonce of RFC 6979 is a number in [1, N-1], whatever HMAC returns *)
  Theorem C60_nonce_range HM fuel d h k : nonce_rfc HM fuel d h = Some k -> 0 < k < N.
  Proof.
    unfold nonce_rfc. cbv zeta. match goal with |- nonce_loop HM fuel ?a ?b = _ -> _ => generalize a b end.
    induction fuel as [|f IH]; intros k1 v1; cbn [nonce_loop]; [discriminate|]. destruct ((1 <=? hash_to_int (HM k1 v1)) && (hash_to_int (HM k1 v1) <? N)) eqn:E; [|apply IH].
    intro H. assert (k = hash_to_int (HM k1 v1)) as -> by congruence. lia.
  Qed.
  (** Sign: deterministic by construction; every signature it returns is valid for the public key of the same bytes, and low *)
  Theorem C60_sign HM fuel pk h q o : priv_from_bytes T pk = Ret (of_be pk, q) -> sign HM T fuel (of_be pk) h = Some o ->
    exists rs, o = Ret rs /\ forall r s, rs = Some (r, s) -> 0 < r < N /\ 0 < s <= half_order /\ verify T q h (r, s) = Ret true.
  Proof.
    unfold priv_from_bytes. rewrite (s_base_mul_ok T pk HT). cbn [deref obind]. intro Q. assert (q = aff (zm (of_be pk) G)) as -> by congruence. clear Q.
    unfold sign. destruct (nonce_rfc HM fuel (of_be pk) h) as [k|] eqn:EK; [|discriminate]. apply C60_nonce_range in EK. intro H. assert (o = sign_nonce T (of_be pk) h k) as -> by congruence. clear H.
    destruct (sign_eq (of_be pk) h k EK) as (inv & _ & E). cbv zeta in E. eexists. split; [exact E|]. intros r s HS. rewrite HS in E. exact (C60_sign_verifies _ _ _ _ _ EK E).
  Qed.

  (** ** recovering the key *)
  Lemma rx_pt x y : on_curve x y -> exists R, R <> ezero /\ aff R = (x, y). Proof. apply on_curve_point. Qed.
  Theorem C60_recover r s h iter checks q : 0 <= r -> 0 <= s -> 0 <= iter -> recover T (r, s) h iter checks = Ret (Some q) <->
    0 < r < N /\ 0 < s < N /\ exists R ry Q, R <> ezero /\ aff R = (N * (iter / 2) + r, ry) /\ Z.odd ry = (iter mod 2 =? 1) /\
      q = aff Q /\ eadd (zm (hash_to_int h) G) (zm r Q) = zm s R.
  Proof.
    intros R0 S0 I0. unfold recover. rewrite !sgn_zero. pose proof n_pos as NP. assert (J0 : 0 <= iter / 2) by (apply Z.div_pos; lia).
    destruct (Z.leb_spec N r) as [Lr|Lr]; [split; [discriminate|intros (A1 & _); lia]|]. destruct (Z.eqb_spec r 0) as [Zr|Zr]; [split; [discriminate|intros (A1 & _); lia]|].
    destruct (Z.leb_spec N s) as [Ls|Ls]; [split; [discriminate|intros (_ & A1 & _); lia]|]. destruct (Z.eqb_spec s 0) as [Zs|Zs]; [split; [discriminate|intros (_ & A1 & _); lia]|].
    set (rx := N * (iter / 2) + r). assert (RX0 : 0 <= rx) by (unfold rx; nia).
    destruct (Z.leb_spec P rx) as [Lx|Lx].
    { split; [discriminate|]. intros (_ & _ & R & ry & Q & NR & AR & _). destruct (aff_rep R _ _ NR AR) as (X & _). lia. }
    assert (RX : 0 <= rx < 2 ^ 256) by (pose proof p_lt; lia).
    destruct (decompress_fe rx (iter mod 2 =? 1)) as [ry|] eqn:D.
    - pose proof (proj1 (dec_iff _ _ _ RX) D) as [O OD]. rewrite Z.mod_small in O by lia. destruct (rx_pt rx ry O) as (R & NR & AR).
      assert (CH : (if checks then s_mul (rx, ry) (to_be N) else (0, 0)) = (0, 0)).
      { destruct checks; [|reflexivity]. rewrite <- AR, sm by lia. rewrite (proj1 (C56_reduce R 0)). reflexivity. }
      rewrite CH. cbn [Z.sgn Z.eqb negb orb]. destruct (inv_ok r ltac:(lia)) as (ir & EI' & IR & CI). rewrite EI'. cbn [deref obind]. rewrite (bm T _ HT) by apply modp. cbn [deref obind].
      rewrite <- AR, sm by apply modp. rewrite s_add_ok, !zm_modN.
      assert (EQ : forall Q, eadd (zm (hash_to_int h) G) (zm r Q) = zm s R <-> Q = eadd (zm (ir * s) R) (zm (((- hash_to_int h) mod N) * ir) G)).
      { intro Q. assert (EE : zm (((- hash_to_int h) mod N) * ir) G = zm (ir * - hash_to_int h) G) by (apply zm_cong; rewrite (cong_mod N _ n_pos); rewrite Z.mul_comm; reflexivity). rewrite EE.
        rewrite !ZMM, <- ZMS, <- (inv_scale r ir Q _ CI), ZMO.
        split; intro H.
        - rewrite <- H, (EC (zm (hash_to_int h) G)), EA, EV, EC, EI. reflexivity.
        - rewrite H, (EC _ (eneg _)), <- EA, EV, EI. reflexivity. }
      split.
      + intro H. assert (q = aff (eadd (zm (ir * s) R) (zm (((- hash_to_int h) mod N) * ir) G))) as -> by congruence. split; [lia|]. split; [lia|].
        exists R, ry, (eadd (zm (ir * s) R) (zm (((- hash_to_int h) mod N) * ir) G)). split; [exact NR|]. split; [exact AR|]. split; [exact OD|]. split; [reflexivity|]. apply EQ. reflexivity.
      + intros (_ & _ & R' & ry' & Q & NR' & AR' & OD' & -> & HQ).
        assert (R' = R) as ->.
        { apply aff_inj. rewrite AR, AR'. f_equal. assert (D' : decompress_fe rx (iter mod 2 =? 1) = Some ry').
          { apply dec_iff; [exact RX|]. split; [|exact OD']. rewrite Z.mod_small by lia. apply on_curve_point. exists R'. auto. } congruence. }
        apply EQ in HQ. rewrite <- HQ. reflexivity.
    - split; [discriminate|]. intros (_ & _ & R & ry & Q & NR & AR & OD & _). exfalso.
      assert (D' : decompress_fe rx (iter mod 2 =? 1) = Some ry). { apply dec_iff; [exact RX|]. split; [|exact OD]. rewrite Z.mod_small by lia. apply on_curve_point. exists R. auto. } congruence.
  Qed.
  Theorem C60_recover_total r s h iter checks : 0 <= r -> 0 <= s -> 0 <= iter -> exists o, recover T (r, s) h iter checks = Ret o.
  Proof.
    intros R0 S0 I0. unfold recover. rewrite !sgn_zero.
    destruct (Z.leb_spec N r); [eauto|]. destruct (Z.eqb_spec r 0); [eauto|]. destruct (Z.leb_spec N s); [eauto|]. destruct (Z.eqb_spec s 0); [eauto|]. destruct (P <=? _); [eauto|].
    destruct (decompress_fe _ _) as [ry|]; [|eauto]. destruct (if checks then _ else _) as [nx ny]. destruct (_ || _); [eauto|].
    destruct (inv_ok r ltac:(lia)) as (ir & -> & _). cbn [deref obind]. rewrite (bm T _ HT) by apply modp. cbn [deref obind]. eauto.
  Qed.
  (** a recovered key verifies the signature it was recovered from *)
  Theorem C60_recovered_verifies r s h iter checks q : 0 <= r -> 0 <= s -> 0 <= iter -> recover T (r, s) h iter checks = Ret (Some q) -> verify T q h (r, s) = Ret true.
  Proof.
    intros R0 S0 I0 H. apply C60_recover in H as (Hr & Hs & R & ry & Q & NR & AR & _ & -> & E); [|assumption..]. apply C60_verify. split; [exact Hr|]. split; [exact Hs|]. exists R. split; [exact NR|]. split; [|symmetry; exact E].
    rewrite AR. cbn [fst]. rewrite Z.add_comm, Z.mul_comm, Z.mod_add by discriminate. apply Z.mod_small. lia.
  Qed.
  (** the signer's key is among the four candidates *)
  Lemma candidate d h k r s : 0 < k < N -> sign_nonce T d h k = Ret (Some (r, s)) -> exists i, In i [0; 1; 2; 3] /\ forall checks, recover T (r, s) h i checks = Ret (Some (aff (zm d G))).
  Proof.
    intros K H. destruct (sign_sound d h k r s K H) as (Hr & Hs & XR & R & CR & E). pose proof half_lt as [HL _]. pose proof (kg_nz k K) as NK.
    assert (NR : R <> ezero) by (destruct CR as [-> | ->]; auto using neg_nz). assert (XR' : fst (aff R) mod N = r) by (destruct CR as [-> | ->]; [|rewrite aff_neg_x]; now symmetry).
    destruct (aff R) as [x y] eqn:AR. cbn [fst] in XR'. destruct (aff_rep R x y NR AR) as (X & _). assert (P2 : P < 2 * N) by reflexivity.
    assert (XJ : exists j, 0 <= j <= 1 /\ x = N * j + r). { exists (x / N). pose proof (Z.div_mod x N ltac:(discriminate)). split; [|lia]. pose proof n_pos. split; [apply Z.div_pos; lia|]. assert (x / N < 2) by (apply Z.div_lt_upper_bound; lia). lia. }
    destruct XJ as (j & J & EJ). exists (2 * j + (if Z.odd y then 1 else 0)). split.
    - assert (JC : j = 0 \/ j = 1) by lia. destruct JC as [-> | ->]; destruct (Z.odd y); cbn; tauto.
    - intro checks. assert (D2 : (2 * j + (if Z.odd y then 1 else 0)) / 2 = j /\ ((2 * j + (if Z.odd y then 1 else 0)) mod 2 =? 1) = Z.odd y).
      { rewrite (Z.mul_comm 2 j). destruct (Z.odd y); (split; [rewrite Z.div_add_l by lia; (change (1 / 2) with 0 || change (0 / 2) with 0); lia|rewrite (Z.add_comm (j * 2)), Z.mod_add by lia; reflexivity]). }
      destruct D2 as [D2 M2]. apply C60_recover; [lia|lia|destruct (Z.odd y); lia|]. split; [exact Hr|]. split; [lia|]. rewrite D2, M2, <- EJ. exists R, y, (zm d G). split; [exact NR|]. split; [exact AR|]. split; [reflexivity|]. split; [reflexivity|]. symmetry. exact E.
  Qed.
  Lemma compact_find is rs Q h cmp : (exists i, In i is /\ recover T rs h i true = Ret (Some Q)) -> (forall i, In i is -> exists o, recover T rs h i true = Ret o) ->
    exists i, In i is /\ recover T rs h i true = Ret (Some Q) /\ compact_loop T is rs Q h cmp = Ret (Some (zb ((27 + i) mod 256 + (if cmp then 4 else 0)) :: pad32 (fst rs) ++ pad32 (snd rs))).
  Proof.
    induction is as [|i is IH]; intros (i0 & I0 & E0) TOT; [destruct I0|]. cbn [compact_loop]. destruct (TOT i (or_introl eq_refl)) as [o EO]. rewrite EO. cbn [obind].
    assert (REC : (forall pk, o = Some pk -> pk <> Q) -> exists i1, In i1 (i :: is) /\ recover T rs h i1 true = Ret (Some Q) /\ compact_loop T is rs Q h cmp = Ret (Some (zb ((27 + i1) mod 256 + (if cmp then 4 else 0)) :: pad32 (fst rs) ++ pad32 (snd rs)))).
    { intro ND. destruct IH as (i1 & I1 & R1 & C1); [|intros; apply TOT; now right|exists i1; split; [now right|auto]]. destruct I0 as [<-|I0]; [|eauto]. exfalso. rewrite EO in E0. apply (ND Q); congruence. }
    destruct o as [pk|]; [|apply REC; discriminate]. destruct ((fst pk =? fst Q) && (snd pk =? snd Q)) eqn:EQ.
    - apply andb_prop in EQ as [Q1 Q2]. apply Z.eqb_eq in Q1, Q2. assert (pk = Q) by (destruct pk, Q; cbn [fst snd] in *; congruence). subst pk. exists i. split; [now left|]. split; [exact EO|reflexivity].
    - apply REC. intros pk' E ->. assert (pk = Q) by congruence. subst pk. rewrite !Z.eqb_refl in EQ. discriminate EQ.
  Qed.
  (** SignCompact succeeds whenever Sign does, and RecoverCompact gives back the key and the flag *)
  Theorem C60_compact HM fuel d h cmp rs : sign HM T fuel d h = Some (Ret (Some rs)) ->
    exists sg, sign_compact HM T fuel d (aff (zm d G)) h cmp = Some (Ret (Some sg)) /\ length sg = 65%nat /\ recover_compact T sg h = Ret (Some (aff (zm d G), cmp)).
  Proof.
    intro H. unfold sign_compact. rewrite H. cbn [obind]. unfold sign in H. destruct (nonce_rfc HM fuel d h) as [k|] eqn:EK; [|discriminate H]. apply C60_nonce_range in EK. assert (HS : sign_nonce T d h k = Ret (Some rs)) by congruence. clear H.
    destruct rs as [r s]. destruct (candidate d h k r s EK HS) as (i0 & I0 & C0). destruct (sign_sound d h k r s EK HS) as (Hr & Hs & _). pose proof half_lt as [HL _].
    destruct (compact_find [0; 1; 2; 3] (r, s) (aff (zm d G)) h cmp) as (i & I & RI & ->); [exists i0; auto|intros i Hi; apply C60_recover_total; try lia; cbn in Hi; lia|].
    eexists. split; [reflexivity|]. cbn [fst snd]. assert (RR : 0 <= r < 2 ^ 256) by (assert (N < 2 ^ 256) by reflexivity; lia). assert (RS : 0 <= s < 2 ^ 256) by (assert (N < 2 ^ 256) by reflexivity; lia).
    rewrite !pad32_fixed by assumption. assert (LR : length (be_fixed 32 r) = 32%nat) by apply be_fixed_length. assert (LS : length (be_fixed 32 s) = 32%nat) by apply be_fixed_length.
    assert (L : length (zb ((27 + i) mod 256 + (if cmp then 4 else 0)) :: be_fixed 32 r ++ be_fixed 32 s) = 65%nat) by (cbn [length]; rewrite app_length, LR, LS; reflexivity). split; [exact L|].
    unfold recover_compact. rewrite L. cbn [Nat.eqb negb].
    assert (FF : firstn 32 (be_fixed 32 r ++ be_fixed 32 s) = be_fixed 32 r /\ skipn 32 (be_fixed 32 r ++ be_fixed 32 s) = be_fixed 32 s).
    { rewrite firstn_app, skipn_app, LR, Nat.sub_diag, firstn_O, skipn_O, app_nil_r, firstn_all2, skipn_all2 by lia. auto. } destruct FF as [-> ->].
    rewrite !of_be_be_fixed by (rewrite p256; assumption).
    assert (HD : (bz (zb ((27 + i) mod 256 + (if cmp then 4 else 0))) - 27) mod 256 = i + (if cmp then 4 else 0)) by (cbn in I; destruct cmp; destruct I as [<-|[<-|[<-|[<-|[]]]]]; reflexivity). rewrite HD.
    assert (HI : Z.land (i + (if cmp then 4 else 0)) 251 = i /\ (Z.land (i + (if cmp then 4 else 0)) 4 =? 4) = cmp) by (cbn in I; destruct cmp; destruct I as [<-|[<-|[<-|[<-|[]]]]]; split; reflexivity). destruct HI as [-> ->].
    assert (RF : recover T (r, s) h i false = Ret (Some (aff (zm d G)))). { apply C60_recover in RI; [|lia|lia|cbn in I; lia]. apply C60_recover; [lia|lia|cbn in I; lia|exact RI]. }
    rewrite RF. reflexivity.
  Qed.
  (** RecoverCompact never panics; what it returns verifies; only the eight header bytes 27..34 are accepted *)
  Theorem C60_recover_compact sg h : exists o, recover_compact T sg h = Ret o /\ forall q c, o = Some (q, c) ->
    length sg = 65%nat /\ verify T q h (of_be (firstn 32 (skipn 1 sg)), of_be (skipn 33 sg)) = Ret true /\ exists f, nth_error sg 0 = Some f /\ 27 <= bz f <= 34 /\ c = (31 <=? bz f).
  Proof.
    unfold recover_compact. destruct sg as [|f r]; [exists None; split; [reflexivity|discriminate]|]. destruct (Nat.eqb_spec (length (f :: r)) 65) as [L|]; [|exists None; split; [reflexivity|discriminate]]. cbn [negb].
    set (m := (bz f - 27) mod 256). assert (M : 0 <= m < 256) by (apply Z.mod_pos_bound; lia). assert (I0 : 0 <= Z.land m 251) by (apply Z.land_nonneg; lia).
    assert (R0 : 0 <= of_be (firstn 32 r)) by apply of_be_range. assert (S0 : 0 <= of_be (skipn 32 r)) by apply of_be_range.
    destruct (C60_recover_total _ _ h _ false R0 S0 I0) as [o E]. rewrite E. cbn [obind]. destruct o as [q|]; [|exists None; split; [reflexivity|discriminate]]. eexists. split; [reflexivity|]. intros q' c HQ.
    assert (q' = q /\ c = (Z.land m 4 =? 4)) as [-> ->] by (split; congruence). split; [exact L|]. cbn [skipn]. split; [exact (C60_recovered_verifies _ _ _ _ _ _ R0 S0 I0 E)|]. exists f. split; [reflexivity|].
    apply C60_recover in E as (Hr & _ & R & ry & Q & NR & AR & _); [|assumption..]. destruct (aff_rep R _ _ NR AR) as (X & _).
    assert (P2 : P < 2 * N) by reflexivity. assert (J : Z.land m 251 / 2 <= 1) by nia. assert (I4 : Z.land m 251 < 4). { pose proof (Z.div_mod (Z.land m 251) 2 ltac:(lia)). pose proof (Z.mod_pos_bound (Z.land m 251) 2 ltac:(lia)). lia. }
    assert (ALL : forallb (fun m => (4 <=? Z.land m 251) || ((m <? 8) && Bool.eqb (Z.land m 4 =? 4) (4 <=? m))) bytes_all = true) by (vm_compute; reflexivity).
    pose proof (proj1 (forallb_forall _ _) ALL m (in_bytes _ M)) as A. apply orb_true_iff in A as [A|A]; [lia|]. apply andb_prop in A as [A1 A2]. apply Bool.eqb_prop in A2. rewrite A2. apply Z.ltb_lt in A1.
    assert (EM : m = bz f - 27 \/ m = bz f - 27 + 256). { pose proof (bz_range f). unfold m in *. destruct (Z_lt_dec (bz f) 27); [right; symmetry; apply (Z.mod_unique_pos _ _ (-1)); lia|left; apply Z.mod_small; lia]. }
    pose proof (bz_range f). split; [lia|]. destruct (Z.leb_spec 4 m), (Z.leb_spec 31 (bz f)); try reflexivity; lia.
  Qed.
  (** ... but the key may be the point at infinity, which is not a key: for every message whose number is not 0 modulo N there is such a signature *)
  Theorem C60_recover_infinity_refuted h : hash_to_int h mod N <> 0 ->
    exists sg, length sg = 65%nat /\ recover_compact T sg h = Ret (Some ((0, 0), false)) /\ is_on_curve 0 0 = false.
  Proof.
    intro EN. set (s := hash_to_int h mod N) in *. assert (S : 0 <= s < N) by (apply Z.mod_pos_bound; reflexivity).
    exists (zb 27 :: be_fixed 32 gx256 ++ be_fixed 32 s). assert (LR : length (be_fixed 32 gx256) = 32%nat) by apply be_fixed_length. assert (LS : length (be_fixed 32 s) = 32%nat) by apply be_fixed_length.
    assert (L : length (zb 27 :: be_fixed 32 gx256 ++ be_fixed 32 s) = 65%nat) by (cbn [length]; rewrite app_length, LR, LS; reflexivity). split; [exact L|]. split; [|exact C57_infinity_off_curve].
    unfold recover_compact. rewrite L. cbn [Nat.eqb negb]. assert (FF : firstn 32 (be_fixed 32 gx256 ++ be_fixed 32 s) = be_fixed 32 gx256 /\ skipn 32 (be_fixed 32 gx256 ++ be_fixed 32 s) = be_fixed 32 s).
    { rewrite firstn_app, skipn_app, LR, Nat.sub_diag, firstn_O, skipn_O, app_nil_r, firstn_all2, skipn_all2 by lia. auto. } destruct FF as [-> ->].
    rewrite !of_be_be_fixed; [|rewrite p256; assert (N < 2 ^ 256) by reflexivity; lia|split; [discriminate|reflexivity]].
    change (Z.land ((bz (zb 27) - 27) mod 256) 251) with 0. change (Z.land ((bz (zb 27) - 27) mod 256) 4 =? 4) with false.
    assert (RF : recover T (gx256, s) h 0 false = Ret (Some (0, 0))).
    { apply C60_recover; [discriminate|lia|lia|]. split; [split; reflexivity|]. split; [lia|]. exists G, gy256, ezero. split; [exact g_nz|]. split; [rewrite aff_G; reflexivity|]. split; [reflexivity|]. split; [reflexivity|].
      rewrite ZMZ, EC, EI. unfold s. rewrite zm_modN. reflexivity. }
    rewrite RF. reflexivity.
  Qed.
End C60.
(** the hypotheses can be met: the generator's table, and a nonce with which signing succeeds (k = 1, number 1, message 0) *)
Theorem C60_example : table_ok gen_table /\ 0 < 1 < N /\ fst (aff (zm 1 G)) mod N <> 0 /\ (1 * (fst (aff (zm 1 G)) mod N) + hash_to_int []) mod N <> 0.
Proof.
  assert (GN : gx256 mod N = gx256) by (apply Z.mod_small; split; [discriminate|reflexivity]).
  split; [exact gen_table_ok|]. split; [split; reflexivity|]. rewrite (ZM1 G), aff_G. cbn [fst]. rewrite GN. split; [discriminate|]. unfold hash_to_int. cbn [firstn]. change (of_be []) with 0. rewrite Z.add_0_r, Z.mul_1_l, GN. discriminate.
Qed.
