(** PropKeygenAdv.v -- key generation against arbitrary peers and arbitrary callers: C06-C16 (keygen part). *)
From Verif Require Import Base BigInt HashFrame Text Wire Messages PartyID Curve Schnorr Json Save Keygen Xor KeygenNet KeygenHonest KeygenWorld KeygenAdv KeygenHist ToyCurve PropKeygen.

Section Hist.
  Variable C : curve.
  Variable H : bytes -> bytes.
  Notation hist := (k_hist C H).
  Notation call := (kop_run C H).

  (** ** C06 *)
  (** [w2] is a well-formed round-2 message whose session constant is [ssid], whose two points are on the
      curve, and whose revealed values hash, with the length-framed SHA-512/256 of the eight fields, to [v]. *)
  Definition opening_matches (ssid : bytes) (j : nat) (v w2 : bytes) : Prop :=
    exists m, parse_wire w2 = Some (CKg2 m) /\ k2_ssid m = ssid /\
      c_on C (of_be (k2_xx m)) (of_be (k2_xy m)) = true /\ c_on C (of_be (k2_ax m)) (of_be (k2_ay m)) = true /\
      sha_parts H [ssid; itoa (Z.of_nat j); k2_srid m; to_be (of_be (k2_xx m)); to_be (of_be (k2_xy m));
                   to_be (of_be (k2_ax m)); to_be (of_be (k2_ay m)); k2_u m] = Some v.
  Lemma opening_ok_matches ssid j v w : opening_ok C H ssid j v w -> opening_matches ssid j v w.
  Proof.
    intros ((m & P) & Es & HX & HA & Ev). unfold open_of, open_X, open_A, open_srid, open_u, on, px, py, open_of in *. rewrite P in *.
    cbn [fst snd] in *. exists m. repeat (split; [auto; fail|]). unfold commit, commit_parts, sha_parts in *. cbn [px py fst snd] in Ev.
    subst v. reflexivity.
  Qed.

  (** Whatever the peers sent and whatever calls were made: if round 2 succeeded, and later (without another
      round 2 in between) round 3 succeeds, then for every other party j the last round-2 message accepted
      from j opens the commitment in the round-1 message that was last accepted from j before round 2. *)
  Theorem C06_openings_match N i pids root r0 p0 l1 p1 r2 p2 l2 p3 r3 p4 :
    (i < N)%nat -> kg_new (Z.of_nat i) (Z.of_nat N) pids root = Ret (r0, Some p0) ->
    hist p0 l1 p1 -> call KR2 p1 = Ret (r2, p2) -> r_ok r2 = true ->
    hist p2 l2 p3 -> (forall r, ~ In (KR2, r) l2) -> call KR3 p3 = Ret (r3, p4) -> r_ok r3 = true ->
    real_ops (l1 ++ l2) ->
    forall j, (j < N)%nat -> j <> i -> exists w1 w2 v,
      last_accept 1 j l1 = Some w1 /\ parse_wire w1 = Some (CKg1 v) /\
      last_accept 2 j ((l1 ++ [(KR2, r2)]) ++ l2) = Some w2 /\ opening_matches kg_ssid j v w2.
  Proof.
    intros Hi New H1 R2 Ok2 H2 NoR2 R3 Ok3 RO j Hj Hji.
    pose proof (new_wf _ _ _ _ _ _ Hi New) as W0.
    assert (RO1 : real_ops l1) by (intros r f m x Hin; apply (RO r f m x); apply in_or_app; auto).
    assert (RO12 : real_ops ((l1 ++ [(KR2, r2)]) ++ l2)).
    { intros r f m x Hin. apply in_app_or in Hin. destruct Hin as [Hin|Hin]; [|apply (RO r f m x); apply in_or_app; auto].
      apply in_app_or in Hin. destruct Hin as [Hin|[Hin|[]]]; [apply (RO1 r f m x Hin)|discriminate]. }
    assert (Z0 : forall r j, (1 <= r <= 3)%nat -> (j < N)%nat -> j <> i -> nth_error (k_slots r p0) j = Some [])
      by (intros; apply (new_slots _ _ _ _ _ _ Hi New); auto).
    destruct (hist_inv C H N i p0 l1 p1 W0 H1 RO1 Z0) as [W1 S1].
    assert (H3 : hist p0 ((l1 ++ [(KR2, r2)]) ++ l2) p3).
    { eapply hist_app; [|exact H2]. econstructor; [exact H1|exact R2]. }
    destruct (hist_inv C H N i p0 _ p3 W0 H3 RO12 Z0) as [W3 S3].
    cbn [kop_run] in R2, R3.
    destruct (r2_exec_inv p1 r2 p2 R2 Ok2) as (A2 & V2 & _ & _).
    pose proof (wf_slots _ _ _ W1 1%nat) as L1. cbn [k_slots] in L1.
    destruct (r3_exec_inv C H p3 r3 p4 R3 Ok3) as (A3 & r3' & X3 & A3p & c3 & tau3 & x3 & _ & _ & EA & _).
    pose proof (wf_slots _ _ _ W3 2%nat) as L3. cbn [k_slots] in L3.
    destruct (wf_A _ _ _ W3 ltac:(congruence)) as [Ess _].
    specialize (A3 j ltac:(lia)). rewrite (wf_i _ _ _ W3), Ess in A3. specialize (A3 Hji).
    assert (EV : nth j (kp_V p3) [] = commit_of (nth j (kp_r1 p1) [])).
    { rewrite (hist_V C H _ _ _ H2 NoR2), V2. apply nth_error_nth. rewrite fold_upd_nth, existsb_seq, (wf_V _ _ _ W1), L1.
      replace (j <? N)%nat with true by (symmetry; apply Nat.ltb_lt; auto). reflexivity. }
    specialize (A2 j ltac:(lia)).
    pose proof (S1 1%nat j ltac:(lia) Hj Hji) as Sl1. cbn [k_slots] in Sl1.
    pose proof (S3 2%nat j ltac:(lia) Hj Hji) as Sl2. cbn [k_slots] in Sl2.
    rewrite (nth_error_nth _ _ _ Sl1) in A2, EV. rewrite (nth_error_nth _ _ _ Sl2) in A3.
    destruct (last_accept 1 j l1) as [w1|]; [|vm_compute in A2; discriminate].
    destruct (last_accept 2 j ((l1 ++ [(KR2, r2)]) ++ l2)) as [w2|].
    2:{ destruct A3 as ((m & P) & _). vm_compute in P. discriminate. }
    exists w1, w2, (commit_of w1). repeat (split; [auto; fail|]). apply opening_ok_matches. rewrite <- EV. exact A3.
  Qed.

  (** ** C07 *)
  (** The revealed values of a round-2 message *)
  Definition revealed (m : kg2) : bytes * Z * Z * Z * Z * bytes :=
    (k2_srid m, of_be (k2_xx m), of_be (k2_xy m), of_be (k2_ax m), of_be (k2_ay m), k2_u m).
  Definition msg_small (m : kg2) : Prop := parts_ok [k2_ssid m; k2_srid m; k2_xx m; k2_xy m; k2_ax m; k2_ay m; k2_u m].

  Lemma strip_small b : Z.of_nat (length b) < 2 ^ 63 -> Z.of_nat (length (to_be (of_be b))) < 2 ^ 63.
  Proof.
    intro Hb. pose proof (of_be_range b). pose proof (to_be_length (of_be b) (length b) ltac:(lia)). lia.
  Qed.
  Lemma itoa_small j : Z.of_nat j < 2 ^ 62 -> Z.of_nat (length (itoa (Z.of_nat j))) < 2 ^ 63.
  Proof.
    intro Hj. assert (B : (length (itoa (Z.of_nat j)) <= 100)%nat).
    { assert (Q : forall fuel z acc, (length (dec_aux fuel z acc) <= length acc + fuel)%nat).
      { induction fuel as [|f IH]; intros z acc; cbn [dec_aux]; [lia|].
        destruct (z / 10 <=? 0); [cbn [length]; lia|].
        specialize (IH (z / 10) (hexchr (z mod 10) :: acc)). cbn [length] in IH. lia. }
      unfold itoa. specialize (Q (S (Z.to_nat (Z.log2 (Z.of_nat j)))) (Z.of_nat j) []). cbn [length] in Q.
      assert (Z.log2 (Z.of_nat j) <= 62). { transitivity (Z.log2 (2 ^ 62)); [apply Z.log2_le_mono; lia|rewrite Z.log2_pow2; lia]. }
      lia. }
    assert (100 < 2 ^ 63) by reflexivity. lia.
  Qed.

  (** Two round-2 messages that open the same commitment, for whichever parties, reveal the same values for
      the same party -- or they exhibit two different inputs of the hash with the same digest. *)
  Theorem C07_commitment_binding ssid j j' v w w' m m' :
    opening_matches ssid j v w -> opening_matches ssid j' v w' ->
    parse_wire w = Some (CKg2 m) -> parse_wire w' = Some (CKg2 m') ->
    msg_small m -> msg_small m' -> Z.of_nat j < 2 ^ 62 -> Z.of_nat j' < 2 ^ 62 ->
    (j = j' /\ revealed m = revealed m') \/ exists a b, collision H a b.
  Proof.
    intros (n & P & Es & _ & _ & Hv) (n' & P' & Es' & _ & _ & Hv') Q Q' Sm Sm' Hj Hj'.
    rewrite P in Q. inversion Q; subst n. rewrite P' in Q'. inversion Q'; subst n'.
    destruct Sm as [_ Sm], Sm' as [_ Sm']. rewrite Es in Sm. rewrite Es' in Sm'.
    repeat match goal with F : Forall _ (_ :: _) |- _ => apply Forall_cons_iff in F; destruct F as [? F] end.
    assert (PO : parts_ok [ssid; itoa (Z.of_nat j); k2_srid m; to_be (of_be (k2_xx m)); to_be (of_be (k2_xy m));
                   to_be (of_be (k2_ax m)); to_be (of_be (k2_ay m)); k2_u m]).
    { split; [cbn; lia|]. repeat constructor; auto using strip_small, itoa_small. }
    assert (PO' : parts_ok [ssid; itoa (Z.of_nat j'); k2_srid m'; to_be (of_be (k2_xx m')); to_be (of_be (k2_xy m'));
                   to_be (of_be (k2_ax m')); to_be (of_be (k2_ay m')); k2_u m']).
    { split; [cbn; lia|]. repeat constructor; auto using strip_small, itoa_small. }
    destruct (sha_parts_inj H _ _ PO PO' ltac:(congruence) ltac:(left; discriminate)) as [E|Col]; [left|right; eauto].
    inversion E as [[E1 E2 E3 E4 E5 E6 E7]]. split; [apply itoa_inj in E1; lia|].
    apply to_be_inj in E3, E4, E5, E6; try apply of_be_range. unfold revealed. congruence.
  Qed.

  (** ** C08 *)
  Notation n := (c_n C).

  (** every stored point is on the curve *)
  Definition pts_on (p : kparty) : Prop :=
    (forall q, In (Some q) (sv_pub (kp_save p)) -> on C q = true) /\
    (forall pl, In (Some pl) (kp_payload p) -> on C (pl_A pl) = true) /\
    (forall q, sv_ed (kp_save p) = Some q -> on C q = true).
  Lemma in_upd {A} i (v : A) l a : In a (upd i v l) -> a = v \/ In a l.
  Proof. revert l; induction i as [|i IH]; intros [|b l] Hin; cbn in Hin; try tauto; destruct Hin as [<-|Hin]; cbn; auto. destruct (IH l Hin); auto. Qed.
  Lemma pt_add_on a b q : pt_add C a b = Some q -> on C q = true.
  Proof. unfold pt_add. intro E. apply new_point_some in E. tauto. Qed.
  Lemma fold_add_on qs a y : (forall q, a = Some q -> on C q = true) ->
    fold_left (fun a r => match a with Some a => pt_add C a r | None => None end) qs a = Some y -> on C y = true.
  Proof.
    revert a; induction qs as [|q qs IH]; intros a Ha E; cbn in E; [apply Ha; exact E|].
    apply (IH _) in E; auto. intros r Hr. destruct a; [|discriminate]. eapply pt_add_on; eauto.
  Qed.

  Lemma r3_one_on j p e p' : kg_r3_one C H j p = Ret (e, p') -> pts_on p -> pts_on p'.
  Proof.
    unfold kg_r3_one. intros E (O1 & O2 & O3).
    destruct (parse_wire (nth j (kp_r2 p) [])) as [[| m | | | | |]|]; try discriminate.
    2:{ inversion E; subst. repeat split; auto. }
    destruct (new_point C (of_be (k2_ax m)) (of_be (k2_ay m))) as [A|] eqn:NA.
    2:{ inversion E; subst. repeat split; cbn; auto. intros pl Hin. apply in_upd in Hin. destruct Hin; [discriminate|auto]. }
    apply new_point_some in NA. destruct NA as [_ NA].
    assert (P2 : forall pl, In (Some pl) (upd j (Some {| pl_A := A; pl_ssid := k2_ssid m; pl_srid := k2_srid m; pl_u := k2_u m |}) (kp_payload p)) -> on C (pl_A pl) = true).
    { intros pl Hin. apply in_upd in Hin. destruct Hin as [Q|]; [inversion Q; exact NA|auto]. }
    destruct (new_point C (of_be (k2_xx m)) (of_be (k2_xy m))) as [X|] eqn:NX.
    2:{ inversion E; subst. repeat split; cbn; auto. intros q Hin. apply in_upd in Hin. destruct Hin; [discriminate|auto]. }
    apply new_point_some in NX. destruct NX as [_ NX].
    assert (P1 : forall q, In (Some q) (upd j (Some X) (sv_pub (kp_save p))) -> on C q = true).
    { intros q Hin. apply in_upd in Hin. destruct Hin as [Q|]; [inversion Q; subst; exact NX|auto]. }
    destruct (bytes_eqb _ _); [destruct (bytes_eqb _ _)|]; inversion E; subst; repeat split; cbn; auto.
  Qed.
  Lemma r3_loop_on js p e p' : kg_r3_loop C H js p = Ret (e, p') -> pts_on p -> pts_on p'.
  Proof.
    revert p; induction js as [|j js IH]; intros p E O; cbn [kg_r3_loop] in E; [inversion E; subst; auto|].
    destruct (j =? kp_i p)%nat; [apply (IH p E O)|].
    destruct (kg_r3_one C H j p) as [[e1 p1]|] eqn:One; cbn [obind] in E; [|discriminate].
    apply r3_one_on in One; auto. destruct e1; [inversion E; subst; auto|apply (IH p1 E One)].
  Qed.
  Lemma op_on o p res p' : call o p = Ret (res, p') -> pts_on p -> pts_on p'.
  Proof.
    intros E O. destruct o as [rr| | | |r from msg|r|codes]; cbn [kop_run] in E.
    - unfold kg_r1_exec in E. destruct (base_mul C (match sv_priv (kp_save p) with Some x => x | None => kr_x rr end)) as [X|] eqn:EX; [|discriminate].
      destruct (base_mul C (kr_tau rr)) as [A|]; [|discriminate].
      destruct (store (sv_pub _) _ _) as [pub|] eqn:E1; cbn [obind] in E; [|discriminate].
      destruct (idx _ _); cbn [obind] in E; [|discriminate]. destruct (store (kp_r1 p) _ _); cbn [obind] in E; [|discriminate].
      inversion E; subst. clear E. apply store_Ret in E1. destruct E1 as (_ & ->). destruct O as (O1 & O2 & O3).
      repeat split; cbn; auto. intros q Hin. apply in_upd in Hin. destruct Hin as [Q|]; [|auto]. inversion Q; subst.
      unfold base_mul in EX. apply new_point_some in EX. tauto.
    - unfold kg_r2_exec in E. destruct (kg_r2_loop _ _) as [[e p1]|] eqn:Lp; cbn [obind] in E; [|discriminate].
      apply r2_loop_frame in Lp. destruct Lp as (V & HV & ->). destruct e; [inversion E; exact O|].
      repeat match type of E with obind ?m _ = _ => destruct m; cbn [obind] in E; [|discriminate] end. inversion E. exact O.
    - unfold kg_r3_exec in E. destruct (kg_r3_loop C H _ _) as [[e p1]|] eqn:Lp; cbn [obind] in E; [|discriminate].
      apply r3_loop_on in Lp; [|exact O]. destruct e; [inversion E; subst; exact Lp|].
      repeat match type of E with obind ?m _ = _ => destruct m; cbn [obind] in E; [|discriminate] end. inversion E. exact Lp.
    - destruct (kg_r4_exec C H p) as [[res1 p1]|] eqn:R4; [|discriminate]. inversion E; subst res1 p1.
      destruct (r_ok res) eqn:Ok.
      + destruct (r4_exec_inv C H p res p' R4 Ok) as (_ & q & qs & y & EP & EF & -> & _). destruct O as (O1 & O2 & O3).
        repeat split; cbn; auto. intros q0 Q. inversion Q; subst q0. eapply fold_add_on; [|exact EF].
        intros q1 Q1. inversion Q1; subst. apply O1. rewrite EP. left. reflexivity.
      + unfold kg_r4_exec in R4. destruct (kg_r4_loop C H _ _) as [[e|]|]; cbn [obind] in R4; [inversion R4; exact O| |discriminate].
        destruct (sum_pub _ _) as [[e|y]|]; cbn [obind] in R4; try discriminate; inversion R4; subst; [exact O|discriminate].
    - unfold kg_accept in E. destruct (b64_dec msg) as [w|]; [|inversion E; subst; exact O].
      destruct (store _ _ _) as [sl|]; cbn [obind] in E; [|discriminate].
      assert (P : p' = k_set_slots r sl p) by (destruct (parse_wire w); [destruct (kg_type_ok r c)|]; congruence).
      subst. destruct r as [|[|[|r]]]; exact O.
    - unfold kg_finish in E. destruct (first_missing _ _ _); inversion E; subst; exact O.
    - unfold save_chain_codes in E. destruct (_ =? _)%nat; [destruct (parse_chain _ _)|]; inversion E; subst; exact O.
  Qed.
  Lemma hist_on p l p' : hist p l p' -> pts_on p -> pts_on p'.
  Proof. induction 1; auto. intro O. eapply op_on; eauto. Qed.
  Lemma new_on i N pids root r0 p0 : (i < N)%nat -> kg_new (Z.of_nat i) (Z.of_nat N) pids root = Ret (r0, Some p0) -> pts_on p0.
  Proof.
    intros Hi New. destruct (kg_new_inv _ _ _ _ _ _ Hi New) as (ids & kb & _ & _ & _ & ->).
    repeat split; cbn; try discriminate; intros q Hin; apply repeat_spec in Hin; discriminate.
  Qed.

  (** the sum of a list of points, computed with the library's point addition *)
  Definition sum_of (ps : list point) : option point :=
    match ps with [] => None | q :: qs => fold_left (fun a r => match a with Some a => pt_add C a r | None => None end) qs (Some q) end.

  (** operations that only bring in messages, query, or store chain codes *)
  Definition quiet (l : list (kop * res)) : Prop :=
    forall o r, In (o, r) l -> match o with KAcc _ _ _ | KFin _ | KChn _ => True | _ => False end.
  Lemma quiet_frame p l p' : hist p l p' -> quiet l ->
    sv_pub (kp_save p') = sv_pub (kp_save p) /\ kp_payload p' = kp_payload p /\ kp_srid p' = kp_srid p /\ kp_ssid p' = kp_ssid p.
  Proof.
    induction 1 as [p|p l p1 o res p2 Hh IH Run]; intro Q; [auto|].
    destruct IH as (I1 & I2 & I3 & I4). { intros o' r' Hin. apply (Q o' r'). apply in_or_app; auto. }
    rewrite <- I1, <- I2, <- I3, <- I4. specialize (Q o res ltac:(apply in_or_app; right; left; reflexivity)).
    destruct o as [rr| | | |r from msg|r|codes]; try contradiction; cbn [kop_run] in Run.
    - unfold kg_accept in Run. destruct (b64_dec msg) as [w|]; [|inversion Run; subst; auto].
      destruct (store _ _ _) as [sl|]; cbn [obind] in Run; [|discriminate].
      assert (P : p2 = k_set_slots r sl p1) by (destruct (parse_wire w); [destruct (kg_type_ok r c)|]; congruence).
      subst. destruct r as [|[|[|r]]]; auto.
    - unfold kg_finish in Run. destruct (first_missing _ _ _); inversion Run; subst; auto.
    - unfold save_chain_codes in Run. destruct (_ =? _)%nat; [destruct (parse_chain _ _)|]; inversion Run; subst; auto.
  Qed.

  (** The challenge of a keygen proof is the digest, reduced modulo the order, of an input that determines the prover's index, its
      point and its nonce commitment, and that starts with twice the digest of the session constant followed by the joint srid. *)
  Theorem C08_challenge_binds : exists pre : bytes -> nat -> point -> point -> bytes,
    (forall ssid srid j X A, kg_challenge C H ssid srid j X A = Ret (of_be (H (pre (ssid ++ srid) j X A)) mod c_n C)) /\
    (forall tag tag' j j' X X' A A', (forall a b, length (H a) = length (H b)) ->
       (forall z, In z [px X; py X; px A; py A; px X'; py X'; px A'; py A'] -> 0 <= z < 2 ^ 256) -> Z.of_nat j < 2 ^ 63 -> Z.of_nat j' < 2 ^ 63 ->
       Z.of_nat (length tag) < 2 ^ 63 -> Z.of_nat (length tag') < 2 ^ 63 ->
       pre tag j X A = pre tag' j' X' A' -> j = j' /\ X = X' /\ A = A' /\ (tag = tag' \/ exists a b, a <> b /\ H a = H b)).
  Proof.
    exists (fun tag j X A => H (frame [tag]) ++ H (frame [tag]) ++ frame (map to_be [Z.of_nat j; px X; py X; px A; py A])).
    split; [reflexivity|]. intros tag tag' j j' X X' A A' HL R Lj Lj' Lt Lt' E.
    apply app_inj_head_len in E; [|apply HL]. destruct E as [E1 E]. apply app_inj_head_len in E; [|apply HL]. destruct E as [_ E].
    assert (SM : forall z, 0 <= z < 2 ^ 256 -> Z.of_nat (length (to_be z)) < 2 ^ 63).
    { intros z Rz. assert (length (to_be z) <= 32)%nat by (apply to_be_length; change (256 ^ Z.of_nat 32) with (2 ^ 256); rewrite Z.abs_eq; lia). lia. }
    assert (PO : forall l, (length l < 10)%nat -> (forall z, In z l -> 0 <= z < 2 ^ 256) -> parts_ok (map to_be l)).
    { intros l Ll Hl. split; [rewrite map_length; lia|]. apply Forall_map, Forall_forall. intros z Hz. apply SM, Hl, Hz. }
    assert (N63 : 2 ^ 63 < 2 ^ 256) by reflexivity.
    apply frame_inj in E.
    - apply map_to_be_inj in E.
      + assert (Z.of_nat j = Z.of_nat j') by congruence. assert (px X = px X') by congruence. assert (py X = py X') by congruence. assert (px A = px A') by congruence. assert (py A = py A') by congruence.
        destruct X, X', A, A'. unfold px, py in *. cbn [fst snd] in *. split; [lia|]. split; [congruence|]. split; [congruence|].
        destruct (bytes_dec tag tag') as [D|D]; [left; exact D|]. right. exists (frame [tag]), (frame [tag']). split; [|exact E1].
        intro F. apply D. apply frame_inj in F; [congruence|split; [cbn; lia|repeat constructor; assumption]|split; [cbn; lia|repeat constructor; assumption]].
      + apply Forall_forall. intros z [<-|Hz]; [lia|]. apply R. repeat (destruct Hz as [<-|Hz]; [cbn; tauto|]). destruct Hz.
      + apply Forall_forall. intros z [<-|Hz]; [lia|]. apply R. repeat (destruct Hz as [<-|Hz]; [cbn; tauto|]). destruct Hz.
    - apply PO; [cbn; lia|]. intros z [<-|Hz]; [lia|]. apply R. repeat (destruct Hz as [<-|Hz]; [cbn; tauto|]). destruct Hz.
    - apply PO; [cbn; lia|]. intros z [<-|Hz]; [lia|]. apply R. repeat (destruct Hz as [<-|Hz]; [cbn; tauto|]). destruct Hz.
  Qed.

  (** Round 3 succeeded, then messages were accepted, then round 4 succeeds.  Then for every other party j:
      the last round-3 message accepted from j is a Schnorr response that verifies for the point X_j and the
      nonce commitment A_j that j opened, under the challenge computed from the session constant, the joint
      srid, j, X_j and A_j; the returned data decodes to a key record with public share X_j at index j; and
      the public key in it is the sum of all the public shares in it. *)
  Theorem C08_round4_checks N i pids root r0 p0 l p3 r3 p4 l3 p5 r4 p6 :
    (i < N)%nat -> kg_new (Z.of_nat i) (Z.of_nat N) pids root = Ret (r0, Some p0) ->
    hist p0 l p3 -> call KR3 p3 = Ret (r3, p4) -> r_ok r3 = true -> hist p4 l3 p5 -> quiet l3 ->
    call KR4 p5 = Ret (r4, p6) -> r_ok r4 = true -> real_ops (l ++ l3) ->
    exists s, save_dec C (r_data r4) = Some s /\
      (exists ps, sv_pub s = map Some ps /\ length ps = N /\ sv_ed s = sum_of ps /\ sv_ed s <> None) /\
      forall j, (j < N)%nat -> j <> i -> exists w2 m w3 z mo pr c,
        last_accept 2 j l = Some w2 /\ parse_wire w2 = Some (CKg2 m) /\
        last_accept 3 j ((l ++ [(KR3, r3)]) ++ l3) = Some w3 /\ parse_wire w3 = Some (CKg3 z mo pr) /\
        let X := (of_be (k2_xx m), of_be (k2_xy m)) in let A := (of_be (k2_ax m), of_be (k2_ay m)) in
        nth_error (sv_pub s) j = Some (Some X) /\ on C X = true /\ on C A = true /\
        kg_challenge C H kg_ssid (kp_srid p4) j X A = Ret c /\ sch_verify C A X c (of_be z) = Ret true.
  Proof.
    intros Hi New H3 R3 Ok3 H5 Qt R4 Ok4 RO.
    pose proof (new_wf _ _ _ _ _ _ Hi New) as W0.
    assert (Z0 : forall r j, (1 <= r <= 3)%nat -> (j < N)%nat -> j <> i -> nth_error (k_slots r p0) j = Some [])
      by (intros; apply (new_slots _ _ _ _ _ _ Hi New); auto).
    assert (RO1 : real_ops l) by (intros r f m x Hin; apply (RO r f m x); apply in_or_app; auto).
    assert (RO2 : real_ops ((l ++ [(KR3, r3)]) ++ l3)).
    { intros r f m x Hin. apply in_app_or in Hin. destruct Hin as [Hin|Hin]; [|apply (RO r f m x); apply in_or_app; auto].
      apply in_app_or in Hin. destruct Hin as [Hin|[Hin|[]]]; [apply (RO1 r f m x Hin)|discriminate]. }
    destruct (hist_inv C H N i p0 l p3 W0 H3 RO1 Z0) as [W3 S3].
    assert (H05 : hist p0 ((l ++ [(KR3, r3)]) ++ l3) p5) by (eapply hist_app; [econstructor; [exact H3|exact R3]|exact H5]).
    destruct (hist_inv C H N i p0 _ p5 W0 H05 RO2 Z0) as [W5 S5].
    pose proof (hist_on _ _ _ H05 (new_on _ _ _ _ _ _ Hi New)) as O5.
    pose proof (op_on KR4 p5 r4 p6 R4 O5) as O6.
    cbn [kop_run] in R3, R4.
    destruct (r3_exec_inv C H p3 r3 p4 R3 Ok3) as (A3 & sl & X3 & A3p & c3 & t3 & x3 & E4 & _ & EA & _).
    destruct (r4_exec_inv C H p5 r4 p6 R4 Ok4) as (A4 & q & qs & y & EP & EF & E6 & ED).
    destruct (quiet_frame _ _ _ H5 Qt) as (F1 & F2 & F3 & F4).
    destruct (wf_A _ _ _ W3 ltac:(congruence)) as [Ess _].
    pose proof (wf_slots _ _ _ W3 2%nat) as L2. cbn [k_slots] in L2.
    pose proof (wf_slots _ _ _ W5 3%nat) as L3. cbn [k_slots] in L3.
    exists (kp_save p6). split.
    { rewrite ED. apply save_roundtrip. destruct O6 as (Q1 & _ & Q3). split; auto. }
    split.
    { exists (q :: qs). rewrite E6. cbn [k_set_save k_set_number kp_save set_ed sv_pub sv_ed].
      split; [exact EP|]. split; [|split; [symmetry; exact EF|discriminate]].
      rewrite <- (wf_pub _ _ _ W5), EP, map_length. reflexivity. }
    intros j Hj Hji.
    specialize (A3 j ltac:(lia)). rewrite (wf_i _ _ _ W3), Ess in A3. specialize (A3 Hji).
    specialize (A4 j ltac:(lia)). rewrite (wf_i _ _ _ W5) in A4. specialize (A4 Hji).
    pose proof (S3 2%nat j ltac:(lia) Hj Hji) as Sl2. cbn [k_slots] in Sl2.
    pose proof (S5 3%nat j ltac:(lia) Hj Hji) as Sl3. cbn [k_slots] in Sl3.
    assert (IN : existsb (Nat.eqb j) (filter (fun k => negb (k =? i)%nat) (seq 0 N)) = true).
    { rewrite existsb_filter, existsb_seq. replace (j <? N)%nat with true by (symmetry; apply Nat.ltb_lt; auto).
      replace (j =? i)%nat with false by (symmetry; apply Nat.eqb_neq; auto). reflexivity. }
    assert (PX : nth_error (sv_pub (kp_save p4)) j = Some (Some (open_X (nth j (kp_r2 p3) [])))).
    { rewrite E4. unfold r3_result, r3_state. cbn [k_set_r3 k_set_number k_set_srid k_set_save k_set_payload kp_save set_pub sv_pub].
      rewrite (wf_i _ _ _ W3), L2, fold_upd_nth, IN, (wf_pub _ _ _ W3).
      replace (j <? N)%nat with true by (symmetry; apply Nat.ltb_lt; auto). reflexivity. }
    assert (PA : nth_error (kp_payload p4) j = Some (Some (mk_payload (fun j => open_A (nth j (kp_r2 p3) [])) (fun j => open_srid (nth j (kp_r2 p3) []))
                    (fun j => open_u (nth j (kp_r2 p3) [])) (kp_ssid p3) j))).
    { rewrite E4. unfold r3_result, r3_state. cbn [k_set_r3 k_set_number k_set_srid k_set_save k_set_payload kp_payload].
      rewrite (wf_i _ _ _ W3), L2, fold_upd_nth, IN, (wf_pl _ _ _ W3).
      replace (j <? N)%nat with true by (symmetry; apply Nat.ltb_lt; auto). reflexivity. }
    rewrite <- F1 in PX. rewrite <- F2 in PA.
    destruct A4 as (X & pl & c & z & B1 & B2 & B3 & B4 & B5).
    rewrite (nth_error_nth _ _ _ PX) in B1. inversion B1; subst X. clear B1.
    rewrite (nth_error_nth _ _ _ PA) in B2. inversion B2; subst pl. clear B2. cbn [mk_payload pl_A] in B3, B5.
    rewrite (nth_error_nth _ _ _ Sl2) in *. rewrite (nth_error_nth _ _ _ Sl3) in B4.
    destruct (last_accept 2 j l) as [w2|].
    2:{ destruct A3 as ((m & P) & _). vm_compute in P. discriminate. }
    destruct (last_accept 3 j ((l ++ [(KR3, r3)]) ++ l3)) as [w3|].
    2:{ vm_compute in B4. discriminate. }
    pose proof (opening_new_point C H _ _ _ _ A3) as (P2 & _ & _).
    destruct A3 as (_ & _ & OX & OA & _).
    unfold proof_of in B4. destruct (parse_wire w3) as [[| |zz mo pr| | | |]|] eqn:P3; try discriminate. inversion B4; subst z.
    exists w2, (open_of w2), w3, zz, mo, pr, c. repeat (split; [auto; fail|]). cbn zeta.
    assert (Ess5 : kp_ssid p5 = kg_ssid) by (rewrite F4, E4; exact Ess).
    rewrite Ess5, F3 in B3.
    split; [rewrite E6; exact PX|]. repeat split; assumption.
  Qed.
End Hist.
