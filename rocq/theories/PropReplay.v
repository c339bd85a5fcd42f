(** PropReplay.v -- C69: do the messages of one session count in another?  Key generation binds the answers to the run's
    joint srid; signing uses the constant session identifier "eddsacmp-onsign" (local_party.go 241-263, with the derivation
    of a real one commented out), so its proofs carry over between sessions. *)
From Verif Require Import Base BigInt HashFrame Text Wire Messages PartyID Curve Schnorr Json Save Keygen NumTh Paillier RangeProofs PropRange Ckd PropCkd Subset Onsign OnsignEnc OnsignHist PropSign SignEx PropSignEx ToyCurve PropSubgroup.
Import Curve.
From Coq Require Import Znumtheory.

(** ** Key generation *)
Section Keygen.
  Variable C : curve.
  Hypothesis L : curve_laws C.
  Variable H : bytes -> bytes.
  Notation n := (c_n C).

  (** One answer is accepted for one challenge only, unless the share is a point of small order. *)
  Theorem C69_answer_fixes_challenge A X c c' z : on C A = true -> on C X = true -> c_smul C X 8 <> c_id C ->
    sch_verify C A X c z = Ret true -> sch_verify C A X c' z = Ret true -> c mod n = c' mod n.
  Proof.
    intros HA HX NS H1 H2. pose proof (n_gt1 C L) as Hn.
    rewrite sch_verify_eq in H1, H2 by auto.
    assert (E1 : pt_eqb (c_add C A (c_smul C X (c mod n))) (gmul C z) = true) by congruence.
    assert (E2 : pt_eqb (c_add C A (c_smul C X (c' mod n))) (gmul C z) = true) by congruence.
    apply pt_eqb_eq in E1. apply pt_eqb_eq in E2. clear H1 H2.
    assert (R1 : 0 <= c mod n < n) by (apply Z.mod_pos_bound; lia). assert (R2 : 0 <= c' mod n < n) by (apply Z.mod_pos_bound; lia).
    set (a := c mod n) in *. set (b := c' mod n) in *. clearbody a b.
    assert (E : c_smul C X a = c_smul C X b).
    { apply (add_cancel_l C L A); [exact HA|apply canon_smul; auto; lia|apply canon_smul; auto; lia|congruence]. }
    assert (W : forall a b, 0 <= b < a -> a < n -> c_smul C X a = c_smul C X b -> False).
    { clear a b R1 R2 E1 E2 E. intros a b Hab Ha E.
      assert (D : c_smul C X (a - b) = c_id C).
      { apply (add_cancel_l C L (c_smul C X b)); [apply on_smul; auto; lia|apply canon_smul; auto; lia|apply (cl_id_canon C L)|].
        rewrite <- (smul_add C L) by (auto; lia). replace (b + (a - b)) with a by lia. rewrite E.
        symmetry. apply (add_0_r C L), canon_smul; auto; lia. }
      destruct (inv_mod C L (a - b)) as (w & Hw & Ew); [rewrite Z.mod_small; lia|].
      apply NS. assert (Z0 : c_smul C X (8 * (w * (a - b))) = c_id C).
      { rewrite (smul_mul C L) by (auto; nia). rewrite (smul_mul C L) by (auto; lia). rewrite D, !(smul_id C L) by lia. reflexivity. }
      assert (Q : w * (a - b) = 1 + n * ((w * (a - b)) / n)) by (pose proof (Z.div_mod (w * (a - b)) n); lia).
      assert (0 <= (w * (a - b)) / n) by (apply Z.div_pos; nia).
      rewrite Q in Z0. replace (8 * (1 + n * (w * (a - b) / n))) with (8 + (w * (a - b) / n) * (8 * n)) in Z0 by lia.
      rewrite (smul_add C L) in Z0 by (auto; nia). rewrite (smul_mul C L X) in Z0 by (auto; nia).
      rewrite (cl_cofactor C L), (smul_id C L), (add_0_r C L) in Z0 by (auto; apply canon_smul; auto; lia). exact Z0. }
    destruct (Z.lt_total a b) as [Lt|[Eq|Gt]]; [exfalso; apply (W b a); [lia|lia|symmetry; exact E]|exact Eq|exfalso; apply (W a b); [lia|lia|exact E]].
  Qed.
  (** So a round-3 message of an earlier run, replayed with the same openings into a run with another joint srid, is
      accepted only if the two challenge hashes agree modulo n. *)
  Theorem C69_keygen_replay j ssid srid srid' X A c c' z : on C A = true -> on C X = true -> c_smul C X 8 <> c_id C ->
    kg_challenge C H ssid srid j X A = Ret c -> kg_challenge C H ssid srid' j X A = Ret c' ->
    sch_verify C A X c z = Ret true -> sch_verify C A X c' z = Ret true -> c = c'.
  Proof.
    intros HA HX NS E1 E2 V1 V2. pose proof (C69_answer_fixes_challenge A X c c' z HA HX NS V1 V2) as E.
    pose proof (n_gt1 C L). unfold kg_challenge, reject_sample in E1, E2.
    destruct (sha_tagged H (ssid ++ srid) _) as [e|]; [|discriminate]. destruct (sha_tagged H (ssid ++ srid') _) as [e'|]; [|discriminate].
    assert (Q : c = e mod n) by congruence. assert (Q' : c' = e' mod n) by congruence. subst.
    rewrite !Z.mod_mod in E by lia. exact E.
  Qed.
End Keygen.

(** ** Signing *)
Section Sign.
  Variables (C : curve) (D : edlib) (B S5 : bytes -> bytes).
  Variable HM : bytes -> bytes -> bytes.
  Variable spare : bytes -> bytes.
  Notation call := (sop_run C D B S5).
  Notation hist := (s_hist C D B S5).

  (** two sessions that see the same keys *)
  Definition same_view (p q : sparty) : Prop :=
    sp_i p = sp_i q /\ sp_ssid p = sp_ssid q /\ sv_pks (sp_save p) = sv_pks (sp_save q) /\ sv_peds (sp_save p) = sv_peds (sp_save q).
  Lemma get_N_same p q j : same_view p q -> get_N p j = get_N q j.
  Proof. intros (_ & _ & E & _). unfold get_N. rewrite E. reflexivity. Qed.
  Lemma get_ped_same p q j : same_view p q -> get_ped p j = get_ped q j.
  Proof. intros (_ & _ & _ & E). unfold get_ped. rewrite E. reflexivity. Qed.

  Lemma s2_one_conv j q K ssid : enc_checked C B q ssid j K -> ssid = sp_ssid q -> (j < length (sp_K q))%nat -> (j < length (sp_r12 q))%nat ->
    s2_one C B j q = Ret (None, s_set_K (upd j (Some K) (sp_K q)) q).
  Proof.
    intros (kb & eb & m & N & pd & P1 & EK & P2 & Ed & EN & Ep & V) -> HK H12. unfold s2_one. rewrite P1, EK, store_nat by exact HK. cbn [obind].
    rewrite idx_nat. change (sp_r12 (s_set_K (upd j (Some K) (sp_K q)) q)) with (sp_r12 q).
    destruct (nth_error (sp_r12 q) j) as [w2|] eqn:E2; [|apply nth_error_None in E2; lia]. cbn [obind].
    rewrite (nth_error_nth _ _ _ E2) in P2. rewrite P2, Ed.
    change (get_N (s_set_K (upd j (Some K) (sp_K q)) q) j) with (get_N q j).
    change (get_ped (s_set_K (upd j (Some K) (sp_K q)) q) (sp_i (s_set_K (upd j (Some K) (sp_K q)) q))) with (get_ped q (sp_i q)).
    rewrite EN. cbn [obind]. rewrite Ep. cbn [obind].
    change (sctx (sp_ssid (s_set_K (upd j (Some K) (sp_K q)) q)) j) with (sp_ssid q ++ to_be (Z.of_nat j)). rewrite V. reflexivity.
  Qed.
  Lemma s2_verify_conv js q : (forall j, In j js -> j <> sp_i q -> exists K, enc_checked C B q (sp_ssid q) j K) ->
    (forall j, In j js -> (j < length (sp_K q))%nat /\ (j < length (sp_r12 q))%nat) ->
    exists Ks, s2_verify C B js q = Ret (None, s_set_K Ks q).
  Proof.
    revert q; induction js as [|j js IH]; intros q HE HL; cbn [s2_verify].
    - exists (sp_K q). destruct q; reflexivity.
    - destruct (Nat.eqb_spec j (sp_i q)) as [Ei|Ne]; [apply IH; [intros k Hk; apply HE; right; exact Hk|intros k Hk; apply HL; right; exact Hk]|].
      destruct (HE j (or_introl eq_refl) Ne) as (K & EC). destruct (HL j (or_introl eq_refl)) as [L1 L2].
      rewrite (s2_one_conv j q K _ EC eq_refl L1 L2). cbn [obind].
      destruct (IH (s_set_K (upd j (Some K) (sp_K q)) q)) as [Ks EKs].
      + intros k Hk Hi. destruct (HE k (or_intror Hk) Hi) as (K' & EC'). exists K'. exact EC'.
      + intros k Hk. cbn. rewrite upd_length. apply HL. right. exact Hk.
      + exists Ks. rewrite EKs. reflexivity.
  Qed.
  Lemma enc_checked_same p q ssid j K : same_view p q -> nth j (sp_r11 p) [] = nth j (sp_r11 q) [] -> nth j (sp_r12 p) [] = nth j (sp_r12 q) [] ->
    enc_checked C B p ssid j K -> enc_checked C B q ssid j K.
  Proof.
    intros S E1 E2 (kb & eb & m & N & pd & P1 & EK & P2 & Ed & EN & Ep & V). exists kb, eb, m, N, pd.
    rewrite <- E1, <- E2, <- (get_N_same p q j S). destruct S as (Si & S'). rewrite <- Si, <- (get_ped_same p q); [|split; [exact Si|exact S']].
    repeat (split; [assumption|]). exact V.
  Qed.

  Lemma s3_one_conv j z R q K Q ssid : log_checked C B q ssid j K Q -> ssid = sp_ssid q -> s3_one C D B j z R q = Ret (inr (ext_add C D R z Q)).
  Proof.
    intros (rx & ry & lb & m & N & pd & P & Ed & On & EK & EN & Ep & V & E8) ->. unfold s3_one. rewrite P, Ed.
    unfold new_point. unfold on in On. cbn [px py fst snd] in On. rewrite On. rewrite idx_nat, EK. cbn [obind deref]. rewrite EN. cbn [obind]. rewrite Ep. cbn [obind].
    unfold sctx. rewrite V. cbn [obind negb]. rewrite E8. reflexivity.
  Qed.
  Lemma s3_loop_conv js z R q : (forall j, In j js -> j <> sp_i q -> exists K Q, log_checked C B q (sp_ssid q) j K Q) ->
    exists R', s3_loop C D B js z R q = Ret (inr R').
  Proof.
    revert R; induction js as [|j js IH]; intros R HE; cbn [s3_loop]; [eauto|].
    destruct (Nat.eqb_spec j (sp_i q)) as [Ei|Ne]; [apply IH; intros k Hk; apply HE; right; exact Hk|].
    destruct (HE j (or_introl eq_refl) Ne) as (K & Q & EC). rewrite (s3_one_conv j (z j) R q K Q _ EC eq_refl). cbn [obind].
    apply IH. intros k Hk; apply HE; right; exact Hk.
  Qed.

  (** the session identifier is the constant from the first round-1 call on *)
  Definition is_r1 (o : sop) : bool := match o with SR1 _ => true | _ => false end.
  Lemma hist_ssid p0 l p : hist p0 l p -> sp_ssid p = if existsb (fun x => is_r1 (fst x)) l then sg_ssid else sp_ssid p0.
  Proof.
    induction 1 as [p|p l p1 o res p2 Hh IH Run]; [reflexivity|]. rewrite existsb_app. cbn [existsb fst orb]. rewrite orb_false_r.
    destruct o as [r|d|z| |to|to|r from msg|r] eqn:Eo; cbn [is_r1].
    1:{ rewrite orb_true_r. cbn [sop_run] in Run. apply r1_frame in Run. destruct Run as (p1' & Ks & r11 & o' & r12 & _ & _ & _ & _ & _ & _ & _ & _ & ->). reflexivity. }
    1:{ rewrite orb_false_r. cbn [sop_run] in Run. apply r2_frame in Run. destruct Run as (? & ? & ? & _ & _ & _ & _ & ->). exact IH. }
    all: rewrite orb_false_r; rewrite <- IH; rewrite <- Eo in Run; apply (op_K C D B S5 o p1 res p2 Run); intros; subst; discriminate.
  Qed.
  (** two sessions created with the same arguments except the message agree on everything but the message *)
  Lemma sg_new_two i N pids msg msg' kd rf path r p r' q : (i < N)%nat ->
    sg_new C HM spare (Z.of_nat i) (Z.of_nat N) pids msg kd rf path = Ret (r, Some p) ->
    sg_new C HM spare (Z.of_nat i) (Z.of_nat N) pids msg' kd rf path = Ret (r', Some q) ->
    sp_i p = i /\ sp_i q = i /\ sp_save p = sp_save q /\ sp_ssid p = [] /\ sp_ssid q = [].
  Proof.
    intros Hi E E'. apply sg_new_inv in E; [|exact Hi]. apply sg_new_inv in E'; [|exact Hi].
    destruct E as (ids & kb & keys & c & priv & X & ded & ch & pubs & rfb & pks & peds & kp & src & m & A1 & A2 & A3 & _ & A4 & A5 & A6 & A7 & A8 & A9 & A10 & A11 & A12 & _ & _ & ->).
    destruct E' as (ids' & kb' & keys' & c' & priv' & X' & ded' & ch' & pubs' & rfb' & pks' & peds' & kp' & src' & m' & B1 & B2 & B3 & _ & B4 & B5 & B6 & B7 & B8 & B9 & B10 & B11 & B12 & _ & _ & ->).
    cbn [sp_i sp_save sp_ssid]. split; [reflexivity|]. split; [reflexivity|]. split; [|split; reflexivity].
    assert (ids' = ids) by congruence. subst ids'. assert (kb' = kb) by congruence. subst kb'. assert (keys' = keys) by congruence. subst keys'.
    assert (c' = c) by congruence. subst c'. assert (X' = X) by congruence. subst X'. assert (priv' = priv) by congruence. subst priv'.
    assert (ded' = ded) by congruence. subst ded'. assert (ch' = ch) by congruence. subst ch'. assert (pubs' = pubs) by congruence. subst pubs'.
    assert (rfb' = rfb) by congruence. subst rfb'. assert (pks' = pks) by congruence. subst pks'. assert (peds' = peds) by congruence. subst peds'.
    congruence.
  Qed.
  Lemma views_agree i N pids msg msg' kd rf path r p0 r' q0 l p l' q : (i < N)%nat ->
    sg_new C HM spare (Z.of_nat i) (Z.of_nat N) pids msg kd rf path = Ret (r, Some p0) ->
    sg_new C HM spare (Z.of_nat i) (Z.of_nat N) pids msg' kd rf path = Ret (r', Some q0) ->
    hist p0 l p -> hist q0 l' q -> existsb (fun x => is_r1 (fst x)) l = true -> existsb (fun x => is_r1 (fst x)) l' = true ->
    same_view p q.
  Proof.
    intros Hi Np Nq Hp Hq Rp Rq. destruct (sg_new_two _ _ _ _ _ _ _ _ _ _ _ _ Hi Np Nq) as (I1 & I2 & S & _ & _).
    destruct (hist_consts C D B S5 _ _ _ Hp) as [(K1 & _ & _ & _ & _ & K2 & K3) _]. destruct (hist_consts C D B S5 _ _ _ Hq) as [(M1 & _ & _ & _ & _ & M2 & M3) _].
    split; [congruence|]. split; [rewrite (hist_ssid _ _ _ Hp), (hist_ssid _ _ _ Hq), Rp, Rq; reflexivity|]. split; congruence.
  Qed.

  (** Refuted, round 2: two sessions of one party, created with the same arguments except for the message to sign; both
      have run round 1 (with any randomness), and for every peer j the last round-1 messages accepted from j are the same
      bytes in both.  If the first session's round 2 accepts the peers, the second's cannot refuse one: it succeeds, or
      fails in making its own proof. *)
  Theorem C69_signing_round2_refuted i N pids msg msg' kd rf path r p0 r' q0 l p l' q d res p1 d' res' q1 : (i < N)%nat ->
    sg_new C HM spare (Z.of_nat i) (Z.of_nat N) pids msg kd rf path = Ret (r, Some p0) ->
    sg_new C HM spare (Z.of_nat i) (Z.of_nat N) pids msg' kd rf path = Ret (r', Some q0) ->
    hist p0 l p -> hist q0 l' q -> existsb (fun x => is_r1 (fst x)) l = true -> existsb (fun x => is_r1 (fst x)) l' = true ->
    (forall j k, (j < N)%nat -> j <> i -> k = K11 \/ k = K12 -> s_last k j l = s_last k j l') ->
    call (SR2 d) p = Ret (res, p1) -> r_ok res = true -> call (SR2 d') q = Ret (res', q1) ->
    (forall e, r_err res' = Some e -> exists j, e = ELogProof j) /\
    forall ssid j K, (j < N)%nat -> j <> i -> (enc_checked C B p ssid j K -> enc_checked C B q ssid j K).
  Proof.
    intros Hi Np Nq Hp Hq Rp Rq SL E Ok E'.
    pose proof (views_agree _ _ _ _ _ _ _ _ _ _ _ _ _ _ _ _ Hi Np Nq Hp Hq Rp Rq) as S.
    destruct (sg_new_wf C HM spare i N pids msg kd rf path r p0 Hi Np) as [W0 Z0]. destruct (sg_new_wf C HM spare i N pids msg' kd rf path r' q0 Hi Nq) as [V0 Y0].
    destruct (s_hist_inv C D B S5 N i p0 l p W0 Hp Z0) as [W S1]. destruct (s_hist_inv C D B S5 N i q0 l' q V0 Hq Y0) as [V S2].
    assert (SE : forall j k, (j < N)%nat -> j <> i -> k = K11 \/ k = K12 -> nth j (s_slots k p) [] = nth j (s_slots k q) []).
    { intros j k Hj Hji Hk. rewrite (nth_error_nth _ _ _ (S1 k j Hj Hji)), (nth_error_nth _ _ _ (S2 k j Hj Hji)), (SL j k Hj Hji Hk). reflexivity. }
    assert (T : forall ssid j K, (j < N)%nat -> j <> i -> enc_checked C B p ssid j K -> enc_checked C B q ssid j K).
    { intros ssid j K Hj Hji. apply enc_checked_same; [exact S|apply (SE j K11 Hj Hji); auto|apply (SE j K12 Hj Hji); auto]. }
    split; [|exact T].
    pose proof (C20_round2_needs_range_proofs C D B S5 N i d p res p1 W E Ok) as EC.
    cbn [sop_run] in E'. unfold sg_r2_exec in E'.
    destruct (s2_verify_conv (seq 0 (length (sp_r11 (s_set_number 2 q)))) (s_set_number 2 q)) as [Ks EV].
    { intros j Hj Hji. pose proof (sw_slots _ _ _ V K11) as LQ. cbn in LQ, Hj, Hji. rewrite LQ in Hj. apply in_seq in Hj. rewrite (sw_i _ _ _ V) in Hji.
      destruct (EC j ltac:(lia) Hji) as (K & C1 & _). exists K. cbn [s_set_number sp_ssid].
      apply (T (sp_ssid q) j K ltac:(lia) Hji). destruct S as (_ & ES & _). rewrite <- ES. exact C1. }
    { intros j Hj. pose proof (sw_slots _ _ _ V K11) as LQ. pose proof (sw_slots _ _ _ V K12) as LQ2. cbn in LQ, LQ2, Hj. rewrite LQ in Hj. apply in_seq in Hj.
      cbn [s_set_number sp_K sp_r12]. rewrite LQ2, (sw_K _ _ _ V). lia. }
    rewrite EV in E'. cbn [obind] in E'.
    destruct (deref (sp_k _)) as [k|]; cbn [obind] in E'; [|discriminate].
    destruct (deref (base_mul _ _)) as [Ri|]; cbn [obind] in E'; [|discriminate].
    destruct (get_N _ _) as [N'|]; cbn [obind] in E'; [|discriminate].
    destruct (s2_loop _ _ _ _ _ _ _ _) as [[e p2]|] eqn:Lp; cbn [obind] in E'; [|discriminate].
    assert (LE : forall js k Ri N d p e p', s2_loop C B js k Ri N d p = Ret (Some e, p') -> exists j, e = ELogProof j).
    { clear. induction js as [|j js IH]; intros k Ri N d p e p' E; cbn [s2_loop] in E; [discriminate|].
      destruct (get_ped _ _) as [pd|]; cbn [obind] in E; [|discriminate].
      destruct (idx _ _) as [K|]; cbn [obind] in E; [|discriminate].
      destruct (log_new_opt _ _ _ _ _ _ _ _ _ _) as [[m|]|]; cbn [obind] in E; [| |discriminate].
      2:{ exists j. congruence. }
      destruct (deref K) as [K'|]; cbn [obind] in E; [|discriminate].
      destruct (log_verify _ _ _ _ _ _ _ _) as [ok|]; cbn [obind] in E; [|discriminate].
      destruct ok; cbn [negb] in E; [|exists j; congruence].
      destruct (store _ _ _) as [out|]; cbn [obind] in E; [|discriminate].
      destruct (j =? _)%nat; [|eapply IH; exact E].
      destruct (store _ _ _) as [own|]; cbn [obind] in E; [|discriminate]. eapply IH; exact E. }
    destruct e as [e|].
    - intros e0 He. apply LE in Lp. assert (e0 = e) by (assert (Q : fail e = res') by congruence; rewrite <- Q in He; cbn in He; congruence). subst. exact Lp.
    - intros e0 He. assert (Q : ok0 = res') by congruence. rewrite <- Q in He. discriminate.
  Qed.

  (** Refuted, round 3: if both sessions' round 2 returned Ok and then (whatever arrives in between) the last round-2
      message accepted from every peer is the same in both, then round 3 of the second session accepts what round 3 of the
      first accepted: it returns a partial signature on its own, different message over the old nonce points. *)
  Theorem C69_signing_round3_refuted i N pids msg msg' kd rf path r p0 r' q0 l p l' q d res p1 d' res' q1 l2 p2 l2' q2 z res3 p3 z' res3' q3 :
    (i < N)%nat -> (forall j, z j mod ed_p D <> 0) ->
    sg_new C HM spare (Z.of_nat i) (Z.of_nat N) pids msg kd rf path = Ret (r, Some p0) ->
    sg_new C HM spare (Z.of_nat i) (Z.of_nat N) pids msg' kd rf path = Ret (r', Some q0) ->
    hist p0 l p -> hist q0 l' q -> existsb (fun x => is_r1 (fst x)) l = true -> existsb (fun x => is_r1 (fst x)) l' = true ->
    (forall j k, (j < N)%nat -> j <> i -> k = K11 \/ k = K12 -> s_last k j l = s_last k j l') ->
    call (SR2 d) p = Ret (res, p1) -> r_ok res = true -> call (SR2 d') q = Ret (res', q1) -> r_ok res' = true ->
    hist p1 l2 p2 -> hist q1 l2' q2 ->
    (forall o x, In (o, x) (l2 ++ l2') -> (forall y, o <> SR1 y) /\ (forall y, o <> SR2 y)) ->
    (forall j, (j < N)%nat -> j <> i -> s_last K2 j ((l ++ [(SR2 d, res)]) ++ l2) = s_last K2 j ((l' ++ [(SR2 d', res')]) ++ l2')) ->
    call (SR3 z) p2 = Ret (res3, p3) -> r_ok res3 = true -> call (SR3 z') q2 = Ret (res3', q3) -> r_ok res3' = true.
  Proof.
    intros Hi Hz Np Nq Hp Hq Rp Rq SL E Ok E' Ok' H2 H2' NI SL2 E3 Ok3 E3'.
    pose proof (views_agree _ _ _ _ _ _ _ _ _ _ _ _ _ _ _ _ Hi Np Nq Hp Hq Rp Rq) as S.
    destruct (C69_signing_round2_refuted _ _ _ _ _ _ _ _ _ _ _ _ _ _ _ _ _ _ _ _ _ _ Hi Np Nq Hp Hq Rp Rq SL E Ok E') as [_ T].
    destruct (sg_new_wf C HM spare i N pids msg kd rf path r p0 Hi Np) as [W0 Z0]. destruct (sg_new_wf C HM spare i N pids msg' kd rf path r' q0 Hi Nq) as [V0 Y0].
    destruct (s_hist_inv C D B S5 N i p0 l p W0 Hp Z0) as [W _]. destruct (s_hist_inv C D B S5 N i q0 l' q V0 Hq Y0) as [V _].
    assert (HP2 : hist p0 ((l ++ [(SR2 d, res)]) ++ l2) p2) by (eapply s_hist_app; [econstructor; [exact Hp|exact E]|exact H2]).
    assert (HQ2 : hist q0 ((l' ++ [(SR2 d', res')]) ++ l2') q2) by (eapply s_hist_app; [econstructor; [exact Hq|exact E']|exact H2']).
    destruct (s_hist_inv C D B S5 N i p0 _ p2 W0 HP2 Z0) as [W2 S1]. destruct (s_hist_inv C D B S5 N i q0 _ q2 V0 HQ2 Y0) as [V2 S2].
    assert (S' : same_view p2 q2).
    { eapply views_agree; [exact Hi|exact Np|exact Nq|exact HP2|exact HQ2| |]; rewrite !existsb_app, ?Rp, ?Rq; reflexivity. }
    assert (NI1 : forall o x, In (o, x) l2 -> (forall y, o <> SR1 y) /\ (forall y, o <> SR2 y)) by (intros o x Hin; apply (NI o x), in_or_app; auto).
    assert (NI2 : forall o x, In (o, x) l2' -> (forall y, o <> SR1 y) /\ (forall y, o <> SR2 y)) by (intros o x Hin; apply (NI o x), in_or_app; auto).
    destruct (hist_K C D B S5 _ _ _ H2 NI1) as [KP _]. destruct (hist_K C D B S5 _ _ _ H2' NI2) as [KQ _].
    pose proof (C20_round2_needs_range_proofs C D B S5 N i d p res p1 W E Ok) as EC.
    pose proof (C20_round2_needs_range_proofs C D B S5 N i d' q res' q1 V E' Ok') as EC'.
    destruct (C20_round3_needs_nonce_proofs C D B S5 N i z p2 res3 p3 W2 Hz E3 Ok3) as (Q & A & LC & _).
    cbn [sop_run] in E3'. unfold sg_r3_exec in E3'.
    match type of E3' with context [s3_loop C D B ?js ?zz ?RR ?qq] => destruct (s3_loop_conv js zz RR qq) as [R' ER] end.
    { intros j Hj Hji. cbn [s_set_number sp_r2 sp_i] in Hj, Hji. pose proof (sw_slots _ _ _ V2 K2) as LQ. cbn in LQ. rewrite LQ in Hj. apply in_seq in Hj. rewrite (sw_i _ _ _ V2) in Hji.
      assert (Hj' : (j < N)%nat) by lia. destruct (LC j Hj' Hji) as (K & CK). exists K, (Q j).
      destruct CK as (rx & ry & lb & m & NN & pd & P & Ed & On & EK & EN & Ep & VL & E8).
      exists rx, ry, lb, m, NN, pd. cbn [s_set_number sp_r2 sp_K sp_ssid sp_i].
      change (get_N (s_set_number 3 q2) j) with (get_N q2 j). change (get_ped (s_set_number 3 q2) (sp_i q2)) with (get_ped q2 (sp_i q2)).
      assert (SE : nth j (sp_r2 p2) [] = nth j (sp_r2 q2) []).
      { rewrite (nth_error_nth _ _ _ (S1 K2 j Hj' Hji : nth_error (sp_r2 p2) j = _)), (nth_error_nth _ _ _ (S2 K2 j Hj' Hji : nth_error (sp_r2 q2) j = _)), (SL2 j Hj' Hji). reflexivity. }
      split; [rewrite <- SE; exact P|]. split; [exact Ed|]. split; [exact On|]. split.
      { destruct (EC j Hj' Hji) as (Ka & Ca & Na). destruct (EC' j Hj' Hji) as (Kb & Cb & Nb). rewrite KQ, Nb. rewrite KP, Na in EK.
        apply (T _ j Ka Hj' Hji) in Ca. destruct Ca as (kb & _ & _ & _ & _ & Pa & Qa & _). destruct Cb as (kb' & _ & _ & _ & _ & Pb & Qb & _).
        rewrite Pa in Pb. congruence. }
      rewrite <- (get_N_same p2 q2 j S'). split; [exact EN|]. destruct S' as (Si & Ss & S''). rewrite <- Si, <- (get_ped_same p2 q2); [|repeat split; try assumption; apply S''].
      split; [exact Ep|]. rewrite <- Ss. split; [exact VL|exact E8]. }
    rewrite ER in E3'. cbn [obind] in E3'.
    destruct (deref _) as [Ag|]; cbn [obind] in E3'; [|discriminate].
    destruct (store _ _ _) as [r3|]; cbn [obind] in E3'; [|discriminate].
    match type of E3' with Ret (?a, _) = _ => assert (EQ : a = res3') by congruence end. rewrite <- EQ. reflexivity.
  Qed.
End Sign.

(** ** A run: party 0 signs "00 41" with party 1; then a second session of party 0, for another message, is fed the
    recorded messages of the first and gets through to its partial signature without party 1 taking part. *)
Definition rp_new : outcome (res * option sparty) := se_new 0 5 (str "4242") se_refresh.
Definition rp_test (ops : list sop) : bool :=
  match rp_new with
  | Ret (_, Some p0) => match se_run (ops ++ [SR3 se_z]) p0 with Some (l, _) => forallb (fun x => r_ok (snd x)) l | None => false end
  | _ => false end.
Definition rp_ops : list sop := [se_r1 3 5; SAcc 1 1 m11_1; SAcc 1 1 m12_1; SFin 1; SR2 se_draws; SAcc 2 1 m2_1; SFin 2].
Lemma rp_test_spec ops : rp_test ops = true -> exists r p0 l p, rp_new = Ret (r, Some p0) /\ se_run (ops ++ [SR3 se_z]) p0 = Some (l, p) /\ forallb (fun x => r_ok (snd x)) l = true.
Proof.
  unfold rp_test. generalize rp_new. intros o T. destruct o as [[r [p0|]]|]; [|discriminate|discriminate].
  destruct (se_run (ops ++ [SR3 se_z]) p0) as [[l p]|] eqn:E; [|discriminate]. exists r, p0, l, p. auto.
Qed.
Lemma rp_test_ok : rp_test rp_ops = true. Proof. vm_cast_no_check (eq_refl true). Qed.
(** the messages are those party 1 sent in the session for "00 41" to a party 0 with nonce 8; here party 0 has nonce 3 *)
Theorem C69_replay_run_refuted : curve_laws toy2 /\ ed_laws toy2 toyD /\ str "4242" <> se_msg /\
  m11_1 = se_out [se_r1 4 6] se_party1 /\ m12_1 = se_out [se_r1 4 6; SGet1 0] se_party1 /\
  m2_1 = se_out ([se_r1 4 6; SAcc 1 0 m11_0; SAcc 1 0 m12_0; SFin 1] ++ [SR2 se_draws; SGet2 0]) se_party1 /\
  exists r p0 l p, rp_new = Ret (r, Some p0) /\
    se_run (rp_ops ++ [SR3 se_z]) p0 = Some (l, p) /\ forallb (fun x => r_ok (snd x)) l = true.
Proof.
  split; [exact toy2_laws|]. split; [exact toyD_laws|]. split; [discriminate|].
  split; [vm_cast_no_check (eq_refl m11_1)|]. split; [vm_cast_no_check (eq_refl m12_1)|]. split; [vm_cast_no_check (eq_refl m2_1)|].
  exact (rp_test_spec rp_ops rp_test_ok).
Qed.
Theorem C69_keygen_example : let X := gmul toy2 5 in let A := gmul toy2 2 in on toy2 A = true /\ on toy2 X = true /\
  c_smul toy2 X 8 <> c_id toy2 /\ sch_verify toy2 A X 3 17 = Ret true /\ sch_verify toy2 A X 14 17 = Ret true /\ sch_verify toy2 A X 4 17 = Ret false.
Proof. cbv zeta. repeat split; try (vm_compute; reflexivity). vm_compute; discriminate. Qed.
