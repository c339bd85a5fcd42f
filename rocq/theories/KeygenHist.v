(** KeygenHist.v -- invariants over every history of calls on one key-generation session. *)
From Verif Require Import Base BigInt HashFrame Text Wire Messages PartyID Curve Schnorr Json Save Keygen Xor KeygenNet KeygenWorld KeygenAdv.

Section Hist.
  Variable C : curve.
  Variable H : bytes -> bytes.
  Notation k_hist := (k_hist C H).
  Notation kop_run := (kop_run C H).

  Record kwf (N i : nat) (p : kparty) : Prop := {
    wf_i : kp_i p = i; wf_lt : (i < N)%nat;
    wf_slots : forall r, length (k_slots r p) = N;
    wf_V : length (kp_V p) = N; wf_pl : length (kp_payload p) = N; wf_pub : length (sv_pub (kp_save p)) = N;
    wf_A : kp_A p <> None -> kp_ssid p = kg_ssid /\ kp_tau p <> None;
    wf_priv : sv_priv (kp_save p) <> None }.

  Lemma new_wf i N pids root res p : (i < N)%nat -> kg_new (Z.of_nat i) (Z.of_nat N) pids root = Ret (res, Some p) -> kwf N i p.
  Proof.
    intros Hi E. destruct (kg_new_inv _ _ _ _ _ _ Hi E) as (ids & kb & _ & _ & _ & ->).
    constructor; cbn; auto; try apply repeat_length; try congruence.
    intros [|[|[|r]]]; apply repeat_length.
  Qed.

  (** what an operation may change *)
  Definition same_slots (p p' : kparty) : Prop := forall r, k_slots r p' = k_slots r p.

  Lemma r2_loop_frame js p e p' : kg_r2_loop js p = Ret (e, p') ->
    exists V, length V = length (kp_V p) /\ p' = k_set_V V p.
  Proof.
    revert p; induction js as [|j js IH]; intros p E; cbn [kg_r2_loop] in E.
    - inversion E; subst. exists (kp_V p'). split; auto. destruct p'; reflexivity.
    - destruct (parse_wire (nth j (kp_r1 p) [])) as [[v| | | | | |]|]; try discriminate.
      + destruct (IH _ E) as (V & HV & ->). exists V. split; [rewrite HV; cbn; apply upd_length|reflexivity].
      + inversion E; subst. exists (kp_V p'). split; auto. destruct p'; reflexivity.
  Qed.
  Lemma r3_one_frame j p e p' : kg_r3_one C H j p = Ret (e, p') ->
    exists sr pub pl, length pub = length (sv_pub (kp_save p)) /\ length pl = length (kp_payload p) /\
      p' = k_set_srid sr (k_set_save (set_pub pub (kp_save p)) (k_set_payload pl p)).
  Proof.
    unfold kg_r3_one. intro E.
    assert (NOP : p = k_set_srid (kp_srid p) (k_set_save (set_pub (sv_pub (kp_save p)) (kp_save p)) (k_set_payload (kp_payload p) p)))
      by (destruct p as [? ? []]; reflexivity).
    destruct (parse_wire (nth j (kp_r2 p) [])) as [[| m | | | | |]|]; try discriminate.
    2:{ inversion E; subst. exists (kp_srid p'), (sv_pub (kp_save p')), (kp_payload p'). auto. }
    destruct (new_point C (of_be (k2_ax m)) (of_be (k2_ay m))).
    2:{ inversion E; subst. exists (kp_srid p), (sv_pub (kp_save p)), (upd j None (kp_payload p)). rewrite upd_length. repeat split; auto.
        destruct p as [? ? []]; reflexivity. }
    cbn [pl_ssid pl_srid pl_u kp_ssid k_set_save k_set_payload kp_V kp_save] in E.
    destruct (new_point C (of_be (k2_xx m)) (of_be (k2_xy m))).
    2:{ inversion E; subst. do 3 eexists. split; [|split; [|unfold k_set_save, k_set_payload, k_set_srid, set_pub; cbn; reflexivity]]; apply upd_length. }
    destruct (bytes_eqb _ _); [destruct (bytes_eqb _ _)|];
      (inversion E; subst; do 3 eexists; split; [|split; [|unfold k_set_save, k_set_payload, k_set_srid, set_pub; cbn; reflexivity]]; apply upd_length).
  Qed.
  Lemma r3_loop_frame js p e p' : kg_r3_loop C H js p = Ret (e, p') ->
    exists sr pub pl, length pub = length (sv_pub (kp_save p)) /\ length pl = length (kp_payload p) /\
      p' = k_set_srid sr (k_set_save (set_pub pub (kp_save p)) (k_set_payload pl p)).
  Proof.
    revert p; induction js as [|j js IH]; intros p E; cbn [kg_r3_loop] in E.
    - inversion E; subst. exists (kp_srid p'), (sv_pub (kp_save p')), (kp_payload p'). repeat split; auto. destruct p' as [? ? []]; reflexivity.
    - destruct (j =? kp_i p)%nat; [apply IH; exact E|].
      destruct (kg_r3_one C H j p) as [[e1 p1]|] eqn:One; cbn [obind] in E; [|discriminate].
      apply r3_one_frame in One. destruct One as (sr & pub & pl & Hp & Hl & ->).
      destruct e1.
      + inversion E; subst. exists sr, pub, pl. auto.
      + destruct (IH _ E) as (sr' & pub' & pl' & Hp' & Hl' & ->). exists sr', pub', pl'.
        rewrite Hp', Hl'. cbn. auto.
  Qed.

  (** own-round slot index written by an Exec call *)
  Definition op_own (o : kop) : option nat := match o with KR1 _ => Some 1%nat | KR2 => Some 2%nat | KR3 => Some 3%nat | _ => None end.

  (** r = 3 stands for every index >= 3 in [k_slots] *)
  Lemma op_frame o p res p' N i : kop_run o p = Ret (res, p') -> kwf N i p -> 
    kwf N i p' /\
    (forall r j, (1 <= r <= 3)%nat -> j <> i -> nth_error (k_slots r p') j =
       match (match o with KAcc r' from msg => if (r' =? r)%nat && (from =? Z.of_nat j) then b64_dec msg else None | _ => None end) with
       | Some w => Some w | None => nth_error (k_slots r p) j end) \/
    exists r' from msg, o = KAcc r' from msg /\ ~ (1 <= r' <= 3)%nat.
  Proof.
    intros E W. destruct o as [rr| | | |r from msg|r|codes]; cbn [KeygenAdv.kop_run] in E.
    - left. unfold kg_r1_exec in E. destruct (base_mul C _) as [X|]; [|discriminate]. destruct (base_mul C (kr_tau rr)) as [A|]; [|discriminate].
      destruct (store (sv_pub _) _ _) as [pub|] eqn:E1; cbn [obind] in E; [|discriminate].
      destruct (idx _ _) as [sh|] eqn:E2; cbn [obind] in E; [|discriminate].
      destruct (store (kp_r1 p) _ _) as [r1|] eqn:E3; cbn [obind] in E; [|discriminate].
      inversion E; subst. clear E. apply store_Ret in E1, E3.
      destruct E1 as (L1 & ->), E3 as (L3 & ->).
      rewrite (wf_i _ _ _ W) in *. split.
      + constructor; cbn; rewrite ?upd_length; try apply W; auto.
        * intros [|[|[|r]]]; cbn; rewrite ?upd_length; apply (wf_slots _ _ _ W 1%nat) || apply (wf_slots _ _ _ W 2%nat) || apply (wf_slots _ _ _ W 3%nat).
        * intros _. split; [reflexivity|discriminate].
        * discriminate.
      + intros r j Hr Hj. destruct r as [|[|[|[|r]]]]; try lia; cbn; try reflexivity.
        rewrite nth_error_upd_diff by lia. reflexivity.
    - left. unfold kg_r2_exec in E. destruct (kg_r2_loop _ _) as [[e p1]|] eqn:Lp; cbn [obind] in E; [|discriminate].
      apply r2_loop_frame in Lp. destruct Lp as (V & HV & ->).
      assert (W1 : kwf N i (k_set_V V (k_set_number 2 p))).
      { constructor; cbn; try apply W. rewrite HV. apply W. }
      destruct e as [e|].
      { inversion E; subst. split; [exact W1|]. reflexivity. }
      destruct (idx _ _) as [Xo|]; cbn [obind] in E; [|discriminate].
      destruct Xo as [X|]; cbn [obind deref] in E; [|discriminate].
      destruct (kp_A _) as [A|]; cbn [obind deref] in E; [|discriminate].
      destruct (store _ _ _) as [r2|] eqn:E3; cbn [obind] in E; [|discriminate].
      inversion E; subst. clear E. apply store_Ret in E3. destruct E3 as (L3 & ->).
      cbn [k_set_V k_set_number kp_i kp_r2] in *. rewrite (wf_i _ _ _ W) in *. split.
      + constructor; cbn; rewrite ?upd_length; try apply W1; auto.
        intros [|[|[|r]]]; cbn; rewrite ?upd_length; apply (wf_slots _ _ _ W 1%nat) || apply (wf_slots _ _ _ W 2%nat) || apply (wf_slots _ _ _ W 3%nat).
      + intros r j Hr Hj. destruct r as [|[|[|[|r]]]]; try lia; cbn; try reflexivity.
        rewrite nth_error_upd_diff by lia. reflexivity.
    - left. unfold kg_r3_exec in E. destruct (kg_r3_loop C H _ _) as [[e p1]|] eqn:Lp; cbn [obind] in E; [|discriminate].
      apply r3_loop_frame in Lp. destruct Lp as (sr & pub & pl & HP & HL & ->).
      assert (W1 : kwf N i (k_set_srid sr (k_set_save (set_pub pub (kp_save (k_set_number 3 p))) (k_set_payload pl (k_set_number 3 p))))).
      { constructor; cbn; try apply W. - cbn in HL. rewrite HL. apply W. - cbn in HP. rewrite HP. apply W. }
      destruct e as [e|].
      { inversion E; subst. split; [exact W1|]. reflexivity. }
      destruct (idx _ _) as [Xo|]; cbn [obind] in E; [|discriminate].
      destruct Xo as [X|]; cbn [obind deref] in E; [|discriminate].
      destruct (kp_A _) as [A|]; cbn [obind deref] in E; [|discriminate].
      destruct (kg_challenge _ _ _ _ _ _ _) as [c|]; cbn [obind] in E; [|discriminate].
      destruct (kp_tau _) as [t|]; cbn [obind deref] in E; [|discriminate].
      destruct (sv_priv _) as [x|]; cbn [obind deref] in E; [|discriminate].
      destruct (store _ _ _) as [r3|] eqn:E3; cbn [obind] in E; [|discriminate].
      inversion E; subst. clear E. apply store_Ret in E3. destruct E3 as (L3 & ->).
      cbn [k_set_srid k_set_save k_set_payload k_set_number kp_i kp_r3] in *. rewrite (wf_i _ _ _ W) in *. split.
      + constructor; cbn; rewrite ?upd_length; try apply W1; auto.
        intros [|[|[|r]]]; cbn; rewrite ?upd_length; apply (wf_slots _ _ _ W 1%nat) || apply (wf_slots _ _ _ W 2%nat) || apply (wf_slots _ _ _ W 3%nat).
      + intros r j Hr Hj. destruct r as [|[|[|[|r]]]]; try lia; cbn; try reflexivity.
        rewrite nth_error_upd_diff by lia. reflexivity.
    - left. unfold kg_r4_exec in E. destruct (kg_r4_loop C H _ _) as [e|] eqn:Lp; cbn [obind] in E; [|discriminate].
      assert (W1 : kwf N i (k_set_number 4 p)) by (constructor; cbn; apply W).
      destruct e as [e|].
      { inversion E; subst. split; [exact W1|]. reflexivity. }
      destruct (sum_pub _ _) as [[e|y]|]; cbn [obind] in E; try discriminate; inversion E; subst.
      + split; [exact W1|]. reflexivity.
      + split; [|reflexivity]. constructor; cbn; apply W.
    - assert (D : (1 <= r <= 3)%nat \/ ~ (1 <= r <= 3)%nat) by lia. destruct D as [Hr|Hr]; [left|right; eauto].
      unfold kg_accept in E. destruct (b64_dec msg) as [w|] eqn:B.
      2:{ inversion E; subst. split; [exact W|]. intros r' j _ _. destruct (_ && _); reflexivity. }
      destruct (store _ _ _) as [sl|] eqn:E3; cbn [obind] in E; [|discriminate].
      apply store_Ret in E3. destruct E3 as (L3 & ->). rewrite (wf_slots _ _ _ W) in L3.
      assert (P : p' = k_set_slots r (upd (Z.to_nat from) w (k_slots r p)) p).
      { destruct (parse_wire w); [destruct (kg_type_ok r c)|]; congruence. }
      clear E. subst p'. split.
      + assert (LU : forall r0, length (k_slots r0 (k_set_slots r (upd (Z.to_nat from) w (k_slots r p)) p)) = N).
        { intro r0. destruct r as [|[|[|[|r]]]]; try lia; destruct r0 as [|[|[|r0]]]; cbn; rewrite ?upd_length;
            apply (wf_slots _ _ _ W 1%nat) || apply (wf_slots _ _ _ W 2%nat) || apply (wf_slots _ _ _ W 3%nat). }
        constructor; try (destruct r as [|[|[|[|r]]]]; try lia; cbn; apply W); exact LU.
      + intros r' j Hr' Hj.
        assert (SL : k_slots r' (k_set_slots r (upd (Z.to_nat from) w (k_slots r p)) p) = if (r =? r')%nat then upd (Z.to_nat from) w (k_slots r p) else k_slots r' p).
        { destruct r as [|[|[|[|r]]]]; try lia; destruct r' as [|[|[|[|r']]]]; try lia; reflexivity. }
        rewrite SL. destruct (Nat.eqb_spec r r') as [->|Er]; cbn [andb]; [|reflexivity].
        destruct (Z.eqb_spec from (Z.of_nat j)) as [->|Ef].
        * rewrite Nat2Z.id. apply nth_error_upd_same. rewrite (wf_slots _ _ _ W). lia.
        * apply nth_error_upd_diff. lia.
    - left. unfold kg_finish in E. destruct (first_missing _ _ _); inversion E; subst; split; auto.
    - left. unfold save_chain_codes in E. destruct (_ =? _)%nat; [destruct (parse_chain _ _)|]; inversion E; subst; split; auto.
      constructor; cbn; apply W.
  Qed.

  (** a history whose Accept calls are those the library exports (rounds 1, 2, 3) *)
  Definition real_ops (l : list (kop * res)) : Prop :=
    forall r from msg x, In (KAcc r from msg, x) l -> (1 <= r <= 3)%nat.

  Lemma hist_inv N i p0 l p : kwf N i p0 -> k_hist p0 l p -> real_ops l ->
    (forall r j, (1 <= r <= 3)%nat -> (j < N)%nat -> j <> i -> nth_error (k_slots r p0) j = Some []) ->
    kwf N i p /\ forall r j, (1 <= r <= 3)%nat -> (j < N)%nat -> j <> i ->
      nth_error (k_slots r p) j = Some (match last_accept r j l with Some w => w | None => [] end).
  Proof.
    intros W0 Hh. induction Hh as [p|p l p1 o res p2 Hh IH Run]; intros RO Z0.
    - split; [exact W0|]. intros r j Hr Hj Hji. cbn. apply Z0; auto.
    - destruct IH as [W1 S1]; auto.
      { intros r from msg x Hin. apply (RO r from msg x). apply in_or_app. left; exact Hin. }
      destruct (op_frame o p1 res p2 N i Run W1) as [[W2 S2]|(r' & from & msg & -> & Hr')].
      + split; [exact W2|]. intros r j Hr Hj Hji. rewrite S2, last_accept_app by auto.
        destruct (match o with KAcc r' from msg => if (r' =? r)%nat && (from =? Z.of_nat j) then b64_dec msg else None | _ => None end); [reflexivity|].
        apply S1; auto.
      + exfalso. apply Hr'. apply (RO r' from msg res). apply in_or_app. right. left. reflexivity.
  Qed.

  Lemma new_slots i N pids root res p : (i < N)%nat -> kg_new (Z.of_nat i) (Z.of_nat N) pids root = Ret (res, Some p) ->
    forall r j, (j < N)%nat -> nth_error (k_slots r p) j = Some [].
  Proof.
    intros Hi E r j Hj. destruct (kg_new_inv _ _ _ _ _ _ Hi E) as (ids & kb & _ & _ & _ & ->).
    destruct r as [|[|[|r]]]; cbn; apply nth_error_repeat; auto.
  Qed.

  (** V is changed only by round 2 (and the session constant only by round 1) *)
  Lemma op_V o p res p' : kop_run o p = Ret (res, p') -> o <> KR2 -> kp_V p' = kp_V p.
  Proof.
    intros E Ho. destruct o as [rr| | | |r from msg|r|codes]; cbn [KeygenAdv.kop_run] in E; try congruence.
    - unfold kg_r1_exec in E. destruct (base_mul C _) as [X|]; [|discriminate]. destruct (base_mul C (kr_tau rr)) as [A|]; [|discriminate].
      repeat match type of E with obind ?m _ = _ => destruct m; cbn [obind] in E; [|discriminate] end. inversion E. reflexivity.
    - unfold kg_r3_exec in E. destruct (kg_r3_loop C H _ _) as [[e p1]|] eqn:Lp; cbn [obind] in E; [|discriminate].
      apply r3_loop_frame in Lp. destruct Lp as (sr & pub & pl & HP & HL & ->).
      destruct e; [inversion E; reflexivity|].
      repeat match type of E with obind ?m _ = _ => destruct m; cbn [obind] in E; [|discriminate] end. inversion E. reflexivity.
    - unfold kg_r4_exec in E. destruct (kg_r4_loop C H _ _) as [[e|]|]; cbn [obind] in E; [inversion E; reflexivity| |discriminate].
      destruct (sum_pub _ _) as [[e|y]|]; cbn [obind] in E; try discriminate; inversion E; reflexivity.
    - unfold kg_accept in E. destruct (b64_dec msg) as [w|]; [|inversion E; reflexivity].
      destruct (store _ _ _) as [sl|]; cbn [obind] in E; [|discriminate].
      assert (P : p' = k_set_slots r sl p) by (destruct (parse_wire w); [destruct (kg_type_ok r c)|]; congruence).
      subst. destruct r as [|[|[|r]]]; reflexivity.
    - unfold kg_finish in E. destruct (first_missing _ _ _); inversion E; reflexivity.
    - unfold save_chain_codes in E. destruct (_ =? _)%nat; [destruct (parse_chain _ _)|]; inversion E; reflexivity.
  Qed.
  Lemma hist_V p l p' : k_hist p l p' -> (forall r, ~ In (KR2, r) l) -> kp_V p' = kp_V p.
  Proof.
    induction 1 as [p|p l p1 o res p2 Hh IH Run]; intro NI; [reflexivity|].
    rewrite (op_V o p1 res p2 Run), IH; [reflexivity| |].
    - intros r Hin. apply (NI r). apply in_or_app. left; exact Hin.
    - intros ->. apply (NI res). apply in_or_app. right. left. reflexivity.
  Qed.
  Lemma hist_app p l1 p1 l2 p2 : k_hist p l1 p1 -> k_hist p1 l2 p2 -> k_hist p (l1 ++ l2) p2.
  Proof.
    intros H1 H2. induction H2 as [|p1' l p3 o res p4 Hh IH Run]; [rewrite app_nil_r; exact H1|].
    rewrite app_assoc. econstructor; [apply IH; exact H1|exact Run].
  Qed.
End Hist.
