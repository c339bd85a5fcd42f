(** PropPartial.v -- what holds of C13, C14 and C16, whose full statements the code does not meet (see the _refuted theorems
    of PropKeygenCalls.v and PropSignEx.v). *)
From Verif Require Import Base BigInt HashFrame Text Wire Messages PartyID Curve Schnorr Json Save Keygen Xor KeygenNet KeygenHonest KeygenWorld KeygenAdv KeygenHist ToyCurve PropKeygen PropKeygenAdv PropKeygenCalls.
From Verif Require Import NumTh Paillier RangeProofs PropRange Ckd PropCkd Subset Onsign OnsignEnc OnsignHist PropSubset PropSign SignEx PropSignEx.

Section Keygen.
  Variable C : curve.
  Variable H : bytes -> bytes.
  Notation hist := (k_hist C H).
  Notation call := (kop_run C H).

  (** ** C13 *)
  Lemma r3_one_keeps j p e p' : kg_r3_one C H j p = Ret (e, p') -> kp_i p' = kp_i p /\ length (kp_payload p') = length (kp_payload p) /\
    length (sv_pub (kp_save p')) = length (sv_pub (kp_save p)) /\
    (e = Some EPayload -> (j < length (kp_payload p))%nat -> nth_error (kp_payload p') j = Some None) /\
    (e = Some EPubXj -> (j < length (sv_pub (kp_save p)))%nat -> nth_error (sv_pub (kp_save p')) j = Some None).
  Proof.
    unfold kg_r3_one. destruct (parse_wire _) as [[]|]; try discriminate.
    2:{ intro E. inversion E; subst. repeat (split; [reflexivity|]). split; discriminate. }
    destruct (new_point C _ _) as [A|].
    2:{ intro E. inversion E; subst. cbn. rewrite upd_length. repeat (split; [reflexivity|]). split; [intros _ Lt; now apply nth_error_upd_same|discriminate]. }
    destruct (new_point C _ _) as [X|].
    2:{ intro E. inversion E; subst. cbn. rewrite !upd_length. repeat (split; [reflexivity|]). split; [discriminate|intros _ Lt; now apply nth_error_upd_same]. }
    destruct (bytes_eqb _ _); [destruct (bytes_eqb _ _)|]; intro E; inversion E; subst; cbn; rewrite !upd_length; repeat (split; [reflexivity|]); split; discriminate.
  Qed.
  Lemma r3_loop_bad js : forall p e p', kg_r3_loop C H js p = Ret (Some e, p') -> e = EPayload \/ e = EPubXj ->
    (forall j, In j js -> (j < length (kp_payload p))%nat /\ (j < length (sv_pub (kp_save p)))%nat) ->
    exists j, In j js /\ j <> kp_i p /\ kp_i p' = kp_i p /\ (nth_error (kp_payload p') j = Some None \/ nth_error (sv_pub (kp_save p')) j = Some None).
  Proof.
    induction js as [|j js IH]; intros p e p' E Be Hl; cbn [kg_r3_loop] in E; [discriminate|].
    destruct (Nat.eqb_spec j (kp_i p)) as [Ej|Nj].
    { destruct (IH p e p' E Be) as (k & Hk & Rest); [intros; apply Hl; right; assumption|]. exists k. split; [right; exact Hk|exact Rest]. }
    destruct (kg_r3_one C H j p) as [[e1 p1]|] eqn:One; cbn [obind] in E; [|discriminate].
    destruct (r3_one_keeps j p e1 p1 One) as (I1 & L1 & L2 & B1 & B2). destruct (Hl j (or_introl eq_refl)) as [Lp Lx].
    destruct e1 as [e1|].
    - assert (e1 = e) by congruence. assert (p1 = p') by congruence. subst e1 p1. exists j. split; [left; reflexivity|]. split; [exact Nj|]. split; [exact I1|].
      destruct Be as [->| ->]; [left; apply B1|right; apply B2]; auto.
    - destruct (IH p1 e p' E Be) as (k & Hk & Nk & Ik & Rest); [intros k Hk; rewrite L1, L2; apply Hl; right; exact Hk|].
      exists k. split; [right; exact Hk|]. split; [congruence|]. split; [congruence|exact Rest].
  Qed.
  (** If KeygenRound3Exec rejects an opening because one of its points is not on the curve, then no later KeygenRound4Exec
      outputs a key, whatever messages arrive in between, as long as round 3 is not run again.  Missing from C13: the openings that
      are rejected because they do not match the commitment or the session constant; for those the code does go on. *)
  Theorem C13_off_curve_opening_partial N i p3 r3 p4 l p5 r4 p6 : kwf N i p3 ->
    call KR3 p3 = Ret (r3, p4) -> r_err r3 = Some EPayload \/ r_err r3 = Some EPubXj ->
    hist p4 l p5 -> quiet l -> real_ops l -> call KR4 p5 = Ret (r4, p6) -> r_ok r4 = false.
  Proof.
    intros W R3 Be Hh Qt RO R4. destruct (r_ok r4) eqn:Ok; [exfalso|reflexivity].
    cbn [kop_run] in R3, R4. unfold kg_r3_exec in R3. cbn [k_set_number kp_r2] in R3.
    destruct (kg_r3_loop C H _ _) as [[e q]|] eqn:Lp; cbn [obind] in R3; [|discriminate].
    destruct e as [e|].
    2:{ assert (NE : r_err r3 = None). { repeat (match type of R3 with obind ?a _ = _ => destruct a as [?|]; cbn [obind] in R3; [|discriminate] end).
          inversion R3. reflexivity. } rewrite NE in Be. destruct Be; discriminate. }
    inversion R3; subst r3 p4. clear R3. cbn [fail r_err] in Be.
    assert (Be' : e = EPayload \/ e = EPubXj) by (destruct Be as [Q|Q]; inversion Q; auto).
    destruct (r3_loop_bad _ _ _ _ Lp Be') as (j & Hj & Nj & Ij & Bad).
    { intros k Hk. apply in_seq in Hk. cbn [k_set_number kp_payload kp_save]. rewrite (wf_pl _ _ _ W), (wf_pub _ _ _ W).
      pose proof (wf_slots _ _ _ W 2%nat) as Ls. cbn [k_slots] in Ls. lia. }
    cbn [k_set_number kp_i] in Nj, Ij. apply in_seq in Hj.
    pose proof (wf_slots _ _ _ W 2%nat) as L2. cbn [k_slots] in L2.
    assert (Wq : kwf N i q). { destruct (op_frame C H KR3 p3 (fail e) q N i) as [[K _]|(r' & f & m & Q & _)]; [|exact W|exact K|discriminate]. cbn [kop_run]. unfold kg_r3_exec. cbn [k_set_number kp_r2]. rewrite Lp. reflexivity. }
    assert (W5 : kwf N i p5). { clear - Hh Wq RO. induction Hh as [p|p l p1 o res p2 Hh IH Run]; [exact Wq|].
      destruct (op_frame C H o p1 res p2 N i Run) as [[K _]|(r' & f & m & Q & NR)]; [apply IH; [|exact Wq]|exact K|].
      - intros r f m x Hin. apply (RO r f m x). apply in_or_app; left; exact Hin.
      - exfalso. apply NR. apply (RO r' f m res). apply in_or_app; right; left. congruence. }
    destruct (quiet_frame C H q l p5 Hh Qt) as (F1 & F2 & _ & _).
    destruct (r4_exec_inv C H p5 r4 p6 R4 Ok) as (A4 & _).
    pose proof (wf_slots _ _ _ W5 3%nat) as L3. cbn [k_slots] in L3.
    destruct (A4 j) as (X & pl & c & z & EX & EP & _); [lia|rewrite (wf_i _ _ _ W5); rewrite (wf_i _ _ _ W) in Nj; exact Nj|].
    rewrite F1 in EX. rewrite F2 in EP. destruct Bad as [Bad|Bad]; [rewrite (nth_error_nth _ _ None Bad) in EP|rewrite (nth_error_nth _ _ None Bad) in EX]; discriminate.
  Qed.

  (** ** C14 *)
  (** The part that holds: the party's secret share after round 1 is the number written in the root key text, and its public share
      is that multiple of the base point.  Missing: an empty root key is the number 0, not a random one. *)
  Theorem C14_given_root_key_partial (L : curve_laws C) N i pids root kb r0 p0 rnd res p1 : (i < N)%nat ->
    kg_new (Z.of_nat i) (Z.of_nat N) pids root = Ret (r0, Some p0) -> hex_dec root = Some kb -> call (KR1 rnd) p0 = Ret (res, p1) ->
    r_ok res = true /\ sv_priv (kp_save p1) = Some (of_be kb) /\ nth_error (sv_pub (kp_save p1)) i = Some (Some (gmul C (of_be kb))).
  Proof.
    intros Hi New Hx R. destruct (kg_new_inv _ _ _ _ _ _ Hi New) as (ids & kb' & _ & Hx' & _ & ->).
    assert (kb' = kb) by congruence. subst kb'. cbn [kop_run] in R. unfold kg_r1_exec in R.
    cbn [set_priv new_save kp_save sv_priv kp_i sv_pub kp_r1 kp_ids] in R. rewrite !base_mul_eq in R by auto.
    rewrite store_nat in R by (rewrite repeat_length; auto). cbn [obind] in R.
    destruct (idx _ _); cbn [obind] in R; [|discriminate]. destruct (store _ _ _); cbn [obind] in R; [|discriminate].
    inversion R; subst. cbn. split; [reflexivity|]. split; [reflexivity|]. apply nth_error_upd_same. rewrite repeat_length. exact Hi.
  Qed.
End Keygen.

Section Sign.
  Variables (C : curve) (D : edlib) (B S5 : bytes -> bytes).
  Notation call := (sop_run C D B S5).
  Notation hist := (s_hist C D B S5).
  Notation n := (c_n C).

  (** ** C16 *)
  (** calls that draw no nonce, verify no new ciphertext and deliver no round-2 message *)
  Definition no_new_nonces (l : list (sop * res)) : Prop :=
    forall o r, In (o, r) l -> match o with SR1 _ | SR2 _ => False | SAcc k _ _ => k <> 2%nat | _ => True end.
  Lemma op_keeps o p res p' : call o p = Ret (res, p') -> match o with SR1 _ | SR2 _ => False | SAcc k _ _ => k <> 2%nat | _ => True end ->
    sp_save p' = sp_save p /\ sp_k p' = sp_k p /\ sp_m p' = sp_m p /\ sp_r2 p' = sp_r2 p /\ sp_i p' = sp_i p.
  Proof.
    intros E Q. destruct o as [r|d|z| |to|to|r from msg|r]; try contradiction.
    - cbn [sop_run] in E. apply r3_frame in E. destruct E as (si & r & r3 & _ & _ & ->). auto 6.
    - cbn [sop_run] in E. apply final_frame in E. destruct E as (d & ->). auto 6.
    - cbn [sop_run] in E. unfold sg_get1 in E. destruct (idx _ _); cbn [obind] in E; [|discriminate]. inversion E; subst; auto 6.
    - cbn [sop_run] in E. unfold sg_get2 in E. destruct (idx _ _); cbn [obind] in E; [|discriminate]. inversion E; subst; auto 6.
    - apply C10_sign_accept_frame in E. destruct E as (k & sl & K & -> & _). destruct r as [|[|[|r]]]; [subst k; auto 6|destruct K as [-> | ->]; auto 6|lia|subst k; auto 6].
    - assert (P : p' = p).
      { destruct r as [|[|[|r]]]; cbn [sop_run] in E; unfold sg_finish1, sg_finish2, sg_finish3 in E;
          try (destruct (s1_missing _ _ _); cbn [obind] in E; [|discriminate]); inversion E; reflexivity. }
      subst; auto 6.
  Qed.
  Lemma hist_keeps p0 l p : hist p0 l p -> no_new_nonces l ->
    sp_save p = sp_save p0 /\ sp_k p = sp_k p0 /\ sp_m p = sp_m p0 /\ sp_r2 p = sp_r2 p0 /\ sp_i p = sp_i p0.
  Proof.
    induction 1 as [p|p l p1 o res p2 Hh IH Run]; intro NI; [auto 6|].
    destruct IH as (A1 & A2 & A3 & A4 & A5). { intros o' r' Hin. apply (NI o' r'). apply in_or_app; left; exact Hin. }
    destruct (op_keeps _ _ _ _ Run (NI o res ltac:(apply in_or_app; right; left; reflexivity))) as (B1 & B2 & B3 & B4 & B5).
    rewrite B1, B2, B3, B4, B5. auto 6.
  Qed.
  Lemma log_checked_fun p p' s s' j K K' Q Q' : sp_r2 p' = sp_r2 p -> log_checked C B p s j K Q -> log_checked C B p' s' j K' Q' -> Q = Q'.
  Proof.
    intros E (rx & ry & lb & m & N & pd & P1 & _ & _ & _ & _ & _ & _ & E1) (rx' & ry' & lb' & m' & N' & pd' & P1' & _ & _ & _ & _ & _ & _ & E1').
    rewrite E, P1 in P1'. inversion P1'; subst. congruence.
  Qed.
  (** The part that holds: if round 3 is run again and neither round 1 nor round 2 was run and no round-2 message was accepted in
      between, the second partial signature is the first one, whatever else was called.  Missing: after a new round-2 message of a peer
      the nonce is used for a different response (C16_sign_nonce_reused_refuted). *)
  Theorem C16_sign_repeated_round3_same_response_partial N i z z' p res p1 l p2 res' p3 :
    curve_laws C -> swf N i p -> (forall j, z j mod ed_p D <> 0) -> (forall j, z' j mod ed_p D <> 0) ->
    call (SR3 z) p = Ret (res, p1) -> r_ok res = true -> hist p1 l p2 -> no_new_nonces l ->
    call (SR3 z') p2 = Ret (res', p3) -> r_ok res' = true -> r_data res' = r_data res.
  Proof.
    intros L W Hz Hz' E Ok Hh NI E' Ok'. pose proof (cl_n_range C L) as Hr.
    destruct (C20_round3_needs_nonce_proofs C D B S5 N i z p res p1 W Hz E Ok) as (Q & A & CQ & EA & F). specialize (F Hr).
    assert (W1 : swf N i p1) by apply (sop_frame C D B S5 _ _ _ _ N i E W).
    assert (W2 : swf N i p2). { clear - Hh W1. induction Hh as [p|p l p1 o res p2 Hh IH Run]; [exact W1|]. apply (sop_frame C D B S5 _ _ _ _ N i Run). apply IH. exact W1. }
    destruct (C20_round3_needs_nonce_proofs C D B S5 N i z' p2 res' p3 W2 Hz' E' Ok') as (Q' & A' & CQ' & EA' & F'). specialize (F' Hr).
    cbv zeta in F, F'. destruct F as (F1 & _ & _), F' as (F1' & _ & _).
    destruct (hist_keeps _ _ _ Hh NI) as (S2 & K2 & M2 & R2 & I2). destruct (op_keeps _ _ _ _ E I) as (S1 & K1 & M1 & R1 & I1).
    rewrite R1 in R2. rewrite S1 in S2. rewrite K1 in K2. rewrite M1 in M2.
    assert (EQ : map Q' (others i N) = map Q (others i N)).
    { apply map_ext_in. intros j Hj. unfold others in Hj. apply filter_In in Hj. destruct Hj as [Hj Nj]. apply in_seq in Hj. apply negb_true_iff, Nat.eqb_neq in Nj.
      destruct (CQ j ltac:(lia) Nj) as [K HQ]. destruct (CQ' j ltac:(lia) Nj) as [K' HQ']. symmetry. exact (log_checked_fun p p2 _ _ j K K' _ _ R2 HQ HQ'). }
    rewrite F1, F1'. rewrite EQ, S2, K2, M2. assert (A' = A) by congruence. subst A'. reflexivity.
  Qed.
End Sign.

(** ** Examples: the hypotheses of the three theorems are met *)
Definition off_curve_2 : bytes :=
  match parse_wire PropKeygenCalls.m2_1 with
  | Some (CKg2 m) => wire_bytes (CKg2 {| k2_ssid := k2_ssid m; k2_pi := k2_pi m; k2_srid := k2_srid m; k2_xx := k2_xx m; k2_xy := to_be 123456; k2_ax := k2_ax m; k2_ay := k2_ay m; k2_u := k2_u m; k2_pn := k2_pn m; k2_ps := k2_ps m; k2_pt := k2_pt m |})
  | _ => [] end.
Definition t13_off (ops : list kop) : bool :=
  match run_ops toy toy_hash ops tp0 with
  | Some (_, p) => match kop_run toy toy_hash KR3 p with
                   | Ret (r3, _) => match r_err r3 with Some EPubXj => true | _ => false end
                   | Panic => false end
  | None => false end.
Lemma t13_off_ok : t13_off [KR1 (ex_rnd 0); KAcc 1 1 (b64_enc PropKeygenCalls.m1_1); KR2; KAcc 2 1 (b64_enc off_curve_2)] = true.
Proof. vm_cast_no_check (eq_refl true). Qed.
Theorem C13_C14_example : exists pids root kb l p r3 q,
  kg_new 0 2 pids root = Ret (ok0, Some tp0) /\ hex_dec root = Some kb /\ of_be kb <> 0 /\
  k_hist toy toy_hash tp0 l p /\ kop_run toy toy_hash KR3 p = Ret (r3, q) /\ r_err r3 = Some EPubXj.
Proof.
  pose proof t13_off_ok as T. unfold t13_off in T. destruct (run_ops toy toy_hash _ tp0) as [[l p]|] eqn:R; [|discriminate T].
  destruct (kop_run toy toy_hash KR3 p) as [[r3 q]|] eqn:E; [|discriminate T].
  destruct (r_err r3) as [[]|] eqn:Er; try discriminate T.
  exists ex_pids, (ex_roots 0), [zb 5], l, p, r3, q. split; [vm_compute; reflexivity|]. split; [reflexivity|]. split; [discriminate|].
  split; [eapply run_ops_hist; exact R|]. split; [exact E|exact Er].
Qed.
Lemma s_run_ops C D B S5 ops : forall p l p', s_run C D B S5 ops p = Some (l, p') -> map fst l = ops.
Proof.
  induction ops as [|o ops IH]; intros p l p' E; cbn [s_run] in E; [inversion E; reflexivity|].
  destruct (sop_run C D B S5 o p) as [[r p1]|]; [|discriminate]. destruct (s_run C D B S5 ops p1) as [[l1 p2]|] eqn:R; [|discriminate].
  inversion E; subst. cbn [map fst]. f_equal. eapply IH. exact R.
Qed.
Definition t16_same (ops again : list sop) : bool :=
  match s_run toy2 toyD ex_hash se_hash64 ops se_party0 with
  | Some (_, p) => match se_call (SR3 se_z) p with
    | Ret (r, q) => match s_run toy2 toyD ex_hash se_hash64 again q with
      | Some (_, q1) => match se_call (SR3 se_z) q1 with Ret (r', _) => r_ok r && r_ok r' | Panic => false end
      | None => false end
    | Panic => false end
  | None => false end.
Lemma t16_same_ok : t16_same se_ops2 [SFin 3; SAcc 3 1 SignEx.m3_1; SFinal; SAcc 1 1 SignEx.m11_1b] = true.
Proof. vm_cast_no_check (eq_refl true). Qed.
Theorem C16_same_response_example : exists l p r q l' q1 r' q2, se_hist se_party0 l p /\ se_call (SR3 se_z) p = Ret (r, q) /\ r_ok r = true /\
  se_hist q l' q1 /\ no_new_nonces l' /\ length l' = 4%nat /\ se_call (SR3 se_z) q1 = Ret (r', q2) /\ r_ok r' = true.
Proof.
  pose proof t16_same_ok as T. unfold t16_same in T. destruct (s_run _ _ _ _ se_ops2 se_party0) as [[l p]|] eqn:R; [|discriminate T].
  destruct (se_call (SR3 se_z) p) as [[r q]|] eqn:E; [|discriminate T].
  destruct (s_run _ _ _ _ _ q) as [[l' q1]|] eqn:R1; [|discriminate T].
  destruct (se_call (SR3 se_z) q1) as [[r' q2]|] eqn:E2; [|discriminate T]. apply andb_prop in T.
  exists l, p, r, q, l', q1, r', q2. split; [eapply s_run_hist; exact R|]. split; [exact E|]. split; [apply T|].
  split; [eapply s_run_hist; exact R1|].
  assert (M : map fst l' = [SFin 3; SAcc 3 1 SignEx.m3_1; SFinal; SAcc 1 1 SignEx.m11_1b]) by (eapply s_run_ops; exact R1).
  split; [|split; [rewrite <- (map_length fst), M; reflexivity|split; [exact E2|apply T]]].
  intros o x Hin. apply (in_map fst) in Hin. rewrite M in Hin. cbn [fst] in Hin. repeat (destruct Hin as [<-|Hin]; [first [exact I|clear; lia]|]). destruct Hin.
Qed.
