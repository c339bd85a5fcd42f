(** PropBlame.v -- C71: who is named when a run fails?  eddsacmp/keygen/round_3.go 59-82 and round_4.go 57-80 name a party in the
    error text (ESsid, EHash, ESchnorr, ESum of Keygen.v); eddsacmp/onsign/round_final.go 78-83 names nobody. *)
From Verif Require Import Base BigInt HashFrame Text Wire Messages PartyID Curve Schnorr Json Save Keygen KeygenNet KeygenHonest KeygenWorld KeygenAdv KeygenHist ToyCurve PropKeygen PropKeygenAdv PropKeygenCalls PropBase PropSubgroup PropReplay Onsign SignExec.
Import Curve.

(** the reply names party [j] *)
Definition names (e : gerr) (j : nat) : Prop := e = ESsid j \/ e = EHash j \/ e = ESchnorr j \/ e = ESum j.

Section Blame.
  Variable C : curve.
  Hypothesis L : curve_laws C.
  Variable H : bytes -> bytes.
  Notation n := (c_n C).
  Notation gm := (gmul C).

  (** ** What an honest party [j] with share [x], nonce [tau], random strings [srid], [u] and joint seed [S] sends *)
  Definition sent1 (j : nat) (x tau : Z) (srid u : bytes) : content := CKg1 (commit H kg_ssid j srid (gm x) (gm tau) u).
  Definition sent2 (x tau : Z) (srid u : bytes) : content :=
    CKg2 {| k2_ssid := kg_ssid; k2_pi := 0; k2_srid := srid; k2_xx := to_be (px (gm x)); k2_xy := to_be (py (gm x));
            k2_ax := to_be (px (gm tau)); k2_ay := to_be (py (gm tau)); k2_u := u; k2_pn := []; k2_ps := []; k2_pt := [] |}.
  Definition sent3 (j : nat) (x tau : Z) (S : bytes) (w : content) : Prop :=
    exists c, kg_challenge C H kg_ssid S j (gm x) (gm tau) = Ret c /\ w = CKg3 (to_be (sch_prove n tau c x)) [] [].
  (** that this is what the round functions return, from any state *)
  Theorem C71_sent r p res1 p' : kg_r1_exec C H r p = Ret (res1, p') -> exists x, sv_priv (kp_save p') = Some x /\
    res1 = okd (wire_bytes (sent1 (kp_i p) x (kr_tau r) (kr_srid r) (kr_u r))) /\
    (forall q res2 q', kp_i q = kp_i p -> kp_save q = kp_save p' -> kp_A q = kp_A p' -> kp_ssid q = kp_ssid p' -> kp_srid q = kp_srid p' -> kp_u q = kp_u p' ->
       kg_r2_exec q = Ret (res2, q') -> r_ok res2 = true -> res2 = okd (wire_bytes (sent2 x (kr_tau r) (kr_srid r) (kr_u r)))).
  Proof.
    unfold kg_r1_exec. set (x := match sv_priv (kp_save p) with Some x => x | None => kr_x r end). rewrite !base_mul_eq by exact L. intro E.
    destruct (store (sv_pub (kp_save p)) (Z.of_nat (kp_i p)) (Some (gm x))) as [pub|] eqn:S1; cbn [obind] in E; [|discriminate].
    destruct (idx (keys (kp_ids p)) (Z.of_nat (kp_i p))) as [share|] eqn:S2; cbn [obind] in E; [|discriminate].
    match type of E with (let! r1 := ?t in _) = _ => destruct t as [r1|] eqn:S3 end; cbn [obind] in E; [|discriminate].
    match type of E with Ret (?a, ?q) = _ => assert (ER : a = res1) by congruence; assert (EP : q = p') by congruence end. clear E. subst p' res1.
    exists x. split; [reflexivity|]. split; [reflexivity|]. cbn [kp_save kp_A kp_ssid kp_srid kp_u].
    intros q res2 q' Ei Es EA Ess Esr Eu. unfold kg_r2_exec.
    assert (LP : forall js e q1 q2, kg_r2_loop js q1 = Ret (e, q2) -> kp_i q2 = kp_i q1 /\ kp_save q2 = kp_save q1 /\ kp_A q2 = kp_A q1 /\ kp_ssid q2 = kp_ssid q1 /\ kp_srid q2 = kp_srid q1 /\ kp_u q2 = kp_u q1).
    { induction js as [|a js IH]; intros e q1 q2; cbn [kg_r2_loop]; [intro Q; assert (q1 = q2) by congruence; subst; auto 10|].
      destruct (parse_wire _) as [[v| | | | | |]|]; try discriminate; [|intro Q; assert (q1 = q2) by congruence; subst; auto 10]. intro Q. apply IH in Q. exact Q. }
    destruct (kg_r2_loop _ _) as [[e q1]|] eqn:K; [|discriminate]. apply LP in K. cbn [k_set_number kp_i kp_save kp_A kp_ssid kp_srid kp_u] in K. destruct K as (K1 & K2 & K3 & K4 & K5 & K6).
    cbn [obind]. destruct e as [e|]; [intros Q R; assert (res2 = fail e) by congruence; subst; discriminate|]. rewrite K1, K2, K3, K4, K5, K6, Ei, Es, EA, Ess, Esr, Eu. cbn [sv_pub].
    assert (IX : idx pub (Z.of_nat (kp_i p)) = Ret (Some (gm x))).
    { pose proof S1 as S1'. unfold store in S1'. destruct ((0 <=? Z.of_nat (kp_i p)) && (Z.of_nat (kp_i p) <? Z.of_nat (length (sv_pub (kp_save p))))) eqn:Bd; [|discriminate]. apply andb_prop in Bd. destruct Bd as [_ Bd]. apply Z.ltb_lt in Bd. rewrite store_nat in S1 by lia. assert (pub = upd (kp_i p) (Some (gm x)) (sv_pub (kp_save p))) as -> by congruence. rewrite idx_nat, nth_error_upd_same by lia. reflexivity. }
    rewrite IX. cbn [obind deref]. match goal with |- (let! r2 := ?t in _) = _ -> _ => destruct t as [r2|] end; cbn [obind]; [|discriminate]. intros Q _. assert (W : forall (a b : res) (c d : kparty), Ret (a, c) = Ret (b, d) -> b = a) by (intros; congruence). exact (W _ _ _ _ Q).
  Qed.

  (** ** Round 3 *)
  Lemma r3_one_frame j p o p' : kg_r3_one C H j p = Ret (o, p') -> kp_V p' = kp_V p /\ kp_r2 p' = kp_r2 p /\ kp_ssid p' = kp_ssid p /\ kp_i p' = kp_i p /\
    (forall e k, o = Some e -> names e k -> k = j /\ exists m X A, parse_wire (nth j (kp_r2 p) []) = Some (CKg2 m) /\ new_point C (of_be (k2_xx m)) (of_be (k2_xy m)) = Some X /\ new_point C (of_be (k2_ax m)) (of_be (k2_ay m)) = Some A /\
       (k2_ssid m <> kp_ssid p \/ commit H (kp_ssid p) j (k2_srid m) X A (k2_u m) <> nth j (kp_V p) [])).
  Proof.
    unfold kg_r3_one. destruct (parse_wire (nth j (kp_r2 p) [])) as [[|m| | | | |]|]; try discriminate.
    - destruct (new_point C (of_be (k2_ax m)) (of_be (k2_ay m))) as [A|] eqn:EA.
      + cbv zeta. destruct (new_point C (of_be (k2_xx m)) (of_be (k2_xy m))) as [X|] eqn:EX.
        * cbn [pl_ssid pl_srid pl_u k_set_save k_set_payload kp_ssid kp_V]. destruct (bytes_eqb_spec (k2_ssid m) (kp_ssid p)) as [Es|Es].
          -- destruct (bytes_eqb_spec (commit H (kp_ssid p) j (k2_srid m) X A (k2_u m)) (nth j (kp_V p) [])) as [Eh|Eh]; intro Q.
             ++ match type of Q with Ret (?a, ?q) = _ => assert (o = a) by congruence; assert (p' = q) by congruence end. subst o p'. repeat split; discriminate.
             ++ match type of Q with Ret (?a, ?q) = _ => assert (o = a) by congruence; assert (p' = q) by congruence end. subst o p'. split; [reflexivity|]. split; [reflexivity|]. split; [reflexivity|]. split; [reflexivity|].
                intros e k Q2 Nm. assert (e = EHash j) as -> by congruence. split; [destruct Nm as [D|[D|[D|D]]]; congruence|]. exists m, X, A. auto 10.
          -- intro Q. match type of Q with Ret (?a, ?q) = _ => assert (o = a) by congruence; assert (p' = q) by congruence end. subst o p'. split; [reflexivity|]. split; [reflexivity|]. split; [reflexivity|]. split; [reflexivity|].
             intros e k Q2 Nm. assert (e = ESsid j) as -> by congruence. split; [destruct Nm as [D|[D|[D|D]]]; congruence|]. exists m, X, A. auto 10.
        * intro Q. match type of Q with Ret (?a, ?q) = _ => assert (o = a) by congruence; assert (p' = q) by congruence end. subst o p'. repeat split; intros; exfalso; match goal with Nm : names _ _, E : Some _ = Some _ |- _ => destruct Nm as [D|[D|[D|D]]]; congruence end.
      + intro Q. match type of Q with Ret (?a, ?q) = _ => assert (o = a) by congruence; assert (p' = q) by congruence end. subst o p'. repeat split; intros; exfalso; match goal with Nm : names _ _, E : Some _ = Some _ |- _ => destruct Nm as [D|[D|[D|D]]]; congruence end.
    - intro Q. match type of Q with Ret (?a, ?q) = _ => assert (o = a) by congruence; assert (p' = q) by congruence end. subst o p'. repeat split; intros; exfalso; match goal with Nm : names _ _, E : Some _ = Some _ |- _ => destruct Nm as [D|[D|[D|D]]]; congruence end.
  Qed.
  (** A party named by round 3 sent an opening with another session identifier, or one that does not match the commitment it had sent in
      round 2: from any state, whatever the other parties sent. *)
  Theorem C71_round3_names p res p' e j : kg_r3_exec C H p = Ret (res, p') -> r_err res = Some e -> names e j ->
    exists m X A, parse_wire (nth j (kp_r2 p) []) = Some (CKg2 m) /\ new_point C (of_be (k2_xx m)) (of_be (k2_xy m)) = Some X /\ new_point C (of_be (k2_ax m)) (of_be (k2_ay m)) = Some A /\
      (k2_ssid m <> kp_ssid p \/ commit H (kp_ssid p) j (k2_srid m) X A (k2_u m) <> nth j (kp_V p) []).
  Proof.
    assert (LP : forall js q o q', kg_r3_loop C H js q = Ret (o, q') -> forall e, o = Some e -> names e j ->
      exists m X A, parse_wire (nth j (kp_r2 q) []) = Some (CKg2 m) /\ new_point C (of_be (k2_xx m)) (of_be (k2_xy m)) = Some X /\ new_point C (of_be (k2_ax m)) (of_be (k2_ay m)) = Some A /\
      (k2_ssid m <> kp_ssid q \/ commit H (kp_ssid q) j (k2_srid m) X A (k2_u m) <> nth j (kp_V q) [])).
    { clear. induction js as [|a js IH]; intros q o q' E e Eo Nm; cbn [kg_r3_loop] in E; [congruence|]. destruct (a =? kp_i q)%nat; [exact (IH _ _ _ E e Eo Nm)|].
      destruct (kg_r3_one C H a q) as [[o1 q1]|] eqn:K; cbn [obind] in E; [|discriminate]. apply r3_one_frame in K. destruct K as (K1 & K2 & K3 & K4 & K5). destruct o1 as [e1|].
      - assert (Some e1 = o) as <- by congruence. assert (e1 = e) as -> by congruence. destruct (K5 e j eq_refl Nm) as [-> K6]. exact K6.
      - specialize (IH _ _ _ E e Eo Nm). rewrite K1, K2, K3 in IH. exact IH. }
    unfold kg_r3_exec. destruct (kg_r3_loop C H _ _) as [[[e1|] q]|] eqn:K; cbn [obind]; [| |discriminate].
    - intros E Er Nm. assert (res = fail e1) as -> by congruence. cbn [r_err fail] in Er. exact (LP _ _ _ _ K e1 eq_refl ltac:(congruence)).
    - intros E Er. exfalso. repeat match type of E with (let! y := ?t in _) = _ => destruct t; cbn [obind] in E; [|discriminate] end.
      match type of E with Ret (?a, ?q) = _ => assert (res = a) by congruence end. subst res. discriminate.
  Qed.
  Lemma np_gm k : new_point C (of_be (to_be (px (gm k)))) (of_be (to_be (py (gm k)))) = Some (gm k).
  Proof. pose proof (cl_coord C L (gm k) (gmul_canon C L k)) as [X1 X2]. rewrite !of_be_to_be_nonneg by lia. pose proof (gmul_on C L k) as O. unfold on in O. unfold new_point. rewrite O. destruct (gm k); reflexivity. Qed.
  (** So an honest party is not named, whatever the other parties sent. *)
  Theorem C71_round3_honest_not_named p res p' e j x tau srid u : kg_r3_exec C H p = Ret (res, p') -> r_err res = Some e -> kp_ssid p = kg_ssid ->
    parse_wire (nth j (kp_r2 p) []) = Some (sent2 x tau srid u) -> sent1 j x tau srid u = CKg1 (nth j (kp_V p) []) -> ~ names e j.
  Proof.
    intros E Er Es P V Nm. destruct (C71_round3_names p res p' e j E Er Nm) as (m & X & A & P' & EX & EA & D). unfold sent2 in P. rewrite P in P'.
    match type of P' with Some (CKg2 ?t) = _ => assert (t = m) by congruence end. subst m. cbn [k2_ssid k2_srid k2_xx k2_xy k2_ax k2_ay k2_u] in *. rewrite np_gm in EX, EA. assert (X = gm x) as -> by congruence. assert (A = gm tau) as -> by congruence.
    rewrite Es in D. unfold sent1 in V. destruct D as [D|D]; [congruence|]. apply D. congruence.
  Qed.

  (** ** Round 4 *)
  Lemma sum_named l : forall i acc e j, on C acc = true -> Forall (fun o => match o with Some P => on C P = true | None => True end) l -> sum_points C i acc l = Ret (inl e) -> ~ names e j.
  Proof.
    induction l as [|[P|] l IH]; intros i acc e j O F; cbn [sum_points]; try discriminate. pose proof (Forall_inv F) as OP. apply Forall_inv_tail in F. cbn in OP.
    destruct (pt_add C acc P) as [q|] eqn:A.
    - apply IH; [|exact F]. rewrite (pt_add_eq C L) in A by assumption. assert (q = c_add C acc P) as -> by congruence. apply on_add; assumption.
    - rewrite (pt_add_eq C L) in A by assumption. discriminate.
  Qed.
  (** A party named by round 4 sent an answer that does not verify for the seed of the party that names it (shares on the curve, which
      round 3 ensures). *)
  Theorem C71_round4_names p res p' e j : Forall (fun o => match o with Some P => on C P = true | None => True end) (sv_pub (kp_save p)) ->
    kg_r4_exec C H p = Ret (res, p') -> r_err res = Some e -> names e j ->
    exists z ms pr X pl c, parse_wire (nth j (kp_r3 p) []) = Some (CKg3 z ms pr) /\ nth j (sv_pub (kp_save p)) None = Some X /\ nth j (kp_payload p) None = Some pl /\
      kg_challenge C H (kp_ssid p) (kp_srid p) j X (pl_A pl) = Ret c /\ sch_verify C (pl_A pl) X c (of_be z) = Ret false.
  Proof.
    intros F E Er Nm.
    assert (ONE : forall a q, kg_r4_one C H a q = Ret (Some e) -> a = j /\ exists z ms pr X pl c, parse_wire (nth j (kp_r3 q) []) = Some (CKg3 z ms pr) /\ nth j (sv_pub (kp_save q)) None = Some X /\ nth j (kp_payload q) None = Some pl /\
      kg_challenge C H (kp_ssid q) (kp_srid q) j X (pl_A pl) = Ret c /\ sch_verify C (pl_A pl) X c (of_be z) = Ret false).
    { intros a q K. unfold kg_r4_one in K. destruct (parse_wire (nth a (kp_r3 q) [])) as [ct|] eqn:P; [|exfalso; assert (e = EParse) as -> by congruence; destruct Nm as [D|[D|[D|D]]]; discriminate].
      destruct (nth a (sv_pub (kp_save q)) None) as [X|] eqn:EX; cbn [deref obind] in K; [|discriminate]. destruct (nth a (kp_payload q) None) as [pl|] eqn:EP; cbn [deref obind] in K; [|discriminate].
      destruct (kg_challenge C H (kp_ssid q) (kp_srid q) a X (pl_A pl)) as [c|] eqn:Ec; cbn [obind] in K; [|discriminate]. destruct ct as [|  |z ms pr| | | |]; try discriminate.
      destruct (sch_verify C (pl_A pl) X c (of_be z)) as [[|]|] eqn:V; cbn [obind] in K; try discriminate. assert (e = ESchnorr a) as -> by congruence.
      assert (a = j) as -> by (destruct Nm as [D|[D|[D|D]]]; congruence). split; [reflexivity|]. exists z, ms, pr, X, pl, c. auto 10. }
    assert (LP : forall js q, kg_r4_loop C H js q = Ret (Some e) -> exists z ms pr X pl c, parse_wire (nth j (kp_r3 q) []) = Some (CKg3 z ms pr) /\ nth j (sv_pub (kp_save q)) None = Some X /\ nth j (kp_payload q) None = Some pl /\
      kg_challenge C H (kp_ssid q) (kp_srid q) j X (pl_A pl) = Ret c /\ sch_verify C (pl_A pl) X c (of_be z) = Ret false).
    { induction js as [|a js IH]; intros q K; cbn [kg_r4_loop] in K; [discriminate|]. destruct (a =? kp_i q)%nat; [exact (IH _ K)|].
      destruct (kg_r4_one C H a q) as [[e1|]|] eqn:K1; cbn [obind] in K; [|exact (IH _ K)|discriminate]. assert (e1 = e) as -> by congruence. exact (proj2 (ONE _ _ K1)). }
    unfold kg_r4_exec in E. destruct (kg_r4_loop C H _ _) as [[e1|]|] eqn:K; cbn [obind] in E; [| |discriminate].
    - assert (res = fail e1) as -> by congruence. cbn [fail r_err] in Er. assert (e1 = e) as -> by congruence. apply LP in K. exact K.
    - exfalso. destruct (sum_pub C _) as [[e1|y]|] eqn:SP; cbn [obind] in E; [| |discriminate].
      + assert (res = fail e1) as -> by congruence. cbn [fail r_err] in Er. assert (e1 = e) as -> by congruence. cbn [k_set_number kp_save] in SP. destruct (sv_pub (kp_save p)) as [|[P|] l]; cbn [sum_pub] in SP; try discriminate.
        apply (sum_named l _ _ _ j (Forall_inv F) (Forall_inv_tail F) SP Nm).
      + match type of E with Ret (?a, ?q) = _ => assert (res = a) by congruence end. subst res. discriminate.
  Qed.
  (** An honest party is not named by a party with the same seed ... *)
  Theorem C71_round4_honest_not_named_partial p res p' e j x tau S pl : Forall (fun o => match o with Some P => on C P = true | None => True end) (sv_pub (kp_save p)) ->
    kg_r4_exec C H p = Ret (res, p') -> r_err res = Some e -> kp_ssid p = kg_ssid ->
    nth j (sv_pub (kp_save p)) None = Some (gm x) -> nth j (kp_payload p) None = Some pl -> pl_A pl = gm tau ->
    (exists w, parse_wire (nth j (kp_r3 p) []) = Some w /\ sent3 j x tau S w) -> kp_srid p = S -> ~ names e j.
  Proof.
    intros F E Er Es EX EP EA (w & P & c & Ec & ->) ES Nm. destruct (C71_round4_names p res p' e j F E Er Nm) as (z & ms & pr & X' & pl' & c' & P' & EX' & EP' & Ec' & V).
    rewrite EX in EX'. assert (X' = gm x) as -> by congruence. rewrite EP in EP'. assert (pl' = pl) as -> by congruence. rewrite P in P'. assert (z = to_be (sch_prove n tau c x)) as -> by congruence.
    rewrite Es, ES, EA in Ec'. assert (c' = c) as -> by congruence. rewrite EA in V. rewrite of_be_to_be_nonneg in V.
    - rewrite sch_complete in V by exact L. discriminate.
    - unfold sch_prove. apply Z.mod_pos_bound. pose proof (n_gt1 C L). lia.
  Qed.
  (** ... and is named by every party with another seed (unless two hashes agree modulo the order), although it followed the protocol. *)
  Theorem C71_round4_honest_named_refuted p j x tau S c c' pl : x mod n <> 0 -> kp_ssid p = kg_ssid ->
    nth j (sv_pub (kp_save p)) None = Some (gm x) -> nth j (kp_payload p) None = Some pl -> pl_A pl = gm tau ->
    (exists w, parse_wire (nth j (kp_r3 p) []) = Some w /\ sent3 j x tau S w) ->
    kg_challenge C H kg_ssid S j (gm x) (gm tau) = Ret c -> kg_challenge C H kg_ssid (kp_srid p) j (gm x) (gm tau) = Ret c' -> c mod n <> c' mod n ->
    kg_r4_one C H j p = Ret (Some (ESchnorr j)).
  Proof.
    intros NX Es EX EP EA (w & P & c0 & Ec0 & ->) Ec Ec' NC. assert (c0 = c) as -> by congruence. unfold kg_r4_one. rewrite P, EX, EP. cbn [deref obind]. rewrite Es, EA, Ec'. cbn [obind].
    pose proof (n_gt1 C L) as Hn. rewrite of_be_to_be_nonneg by (unfold sch_prove; apply Z.mod_pos_bound; lia).
    destruct (sch_verify C (gm tau) (gm x) c' (sch_prove n tau c x)) as [[|]|] eqn:V; [|reflexivity|].
    - exfalso. apply (sch_verify_iff C L) in V. unfold sch_prove in V. rewrite Z.mod_mod in V by lia.
      assert (D : (n | (c - c') * x)).
      { apply Z.mod_divide; [lia|]. replace ((c - c') * x) with ((tau + c * x) - (tau + c' * x)) by ring. rewrite Zminus_mod, V, Z.sub_diag. apply Z.mod_0_l. lia. }
      apply Znumtheory.prime_mult in D; [|apply (cl_prime C L)]. destruct D as [D|D]; [apply NC|apply NX].
      + destruct D as [k D]. replace c with (c' + k * n) by (rewrite <- D; ring). apply Z_mod_plus_full.
      + apply Z.mod_divide; [lia|exact D].
    - exfalso. rewrite sch_verify_eq in V by (exact L || apply gmul_on; exact L). discriminate.
  Qed.
End Blame.

(** ** A whole run on the toy curve: three parties; the third keeps two honest sessions of its own, one towards each of the others *)
Definition bl_pids : list bytes := [str "20"; str "10"; str "30"].
Definition bl_roots (i : nat) : bytes := match i with 0%nat => str "05" | 1%nat => str "0b13" | _ => str "07" end.
Definition bl_party (i : nat) : kparty := match kg_new (Z.of_nat i) 3 bl_pids (bl_roots i) with Ret (_, Some p) => p | _ => tp0 end.
(** the random values of the second session of the third party *)
Definition bl_rnd' : kg_rand := {| kr_x := 3; kr_tau := 6; kr_u := repeat (zb 3) 32; kr_srid := be_fixed 32 1 |}.
Definition bl1 (p : nat) (r : kg_rand) : bytes := out_of (trun [KR1 r] (bl_party p)) 0.
Definition bl_ops12 (r : kg_rand) (a : nat) (ra : kg_rand) (b : nat) (rb : kg_rand) : list kop := [KR1 r; KAcc 1 (Z.of_nat a) (b64_enc (bl1 a ra)); KAcc 1 (Z.of_nat b) (b64_enc (bl1 b rb)); KR2].
Definition bl2 (p : nat) (r : kg_rand) (a : nat) (ra : kg_rand) (b : nat) (rb : kg_rand) : bytes := out_of (trun (bl_ops12 r a ra b rb) (bl_party p)) 3.
(** round-2 messages: 0 and the first copy of 2 see (0, 1, 2); 1 sees the second copy of 2 *)
Definition bl2_0 := bl2 0 (ex_rnd 0) 1 (ex_rnd 1) 2 (ex_rnd 2).
Definition bl2_1 := bl2 1 (ex_rnd 1) 0 (ex_rnd 0) 2 bl_rnd'.
Definition bl2_2 := bl2 2 (ex_rnd 2) 0 (ex_rnd 0) 1 (ex_rnd 1).
Definition bl2_2' := bl2 2 bl_rnd' 0 (ex_rnd 0) 1 (ex_rnd 1).
Definition bl_ops3_0 := bl_ops12 (ex_rnd 0) 1 (ex_rnd 1) 2 (ex_rnd 2) ++ [KAcc 2 1 (b64_enc bl2_1); KAcc 2 2 (b64_enc bl2_2); KR3].
Definition bl_ops3_1 := bl_ops12 (ex_rnd 1) 0 (ex_rnd 0) 2 bl_rnd' ++ [KAcc 2 0 (b64_enc bl2_0); KAcc 2 2 (b64_enc bl2_2'); KR3].
Definition bl_ops3_2 := bl_ops12 (ex_rnd 2) 0 (ex_rnd 0) 1 (ex_rnd 1) ++ [KAcc 2 0 (b64_enc bl2_0); KAcc 2 1 (b64_enc bl2_1); KR3].
Definition bl3_0 := out_of (trun bl_ops3_0 (bl_party 0)) 6.
Definition bl3_1 := out_of (trun bl_ops3_1 (bl_party 1)) 6.
Definition bl3_2 := out_of (trun bl_ops3_2 (bl_party 2)) 6.
Definition bl_ops4_0 := bl_ops3_0 ++ [KAcc 3 1 (b64_enc bl3_1); KAcc 3 2 (b64_enc bl3_2)].
Definition is_okd (o : option (kop * res)) (b : bytes) : bool := match o with Some (_, r) => r_ok r && bytes_eqb (r_data r) b | None => false end.
Definition bl_check (t0 t1 : option (list (kop * res) * kparty)) (b1 b2 b3 : bytes) : bool :=
  match t0 with None => false | Some (l0, p) => match t1 with None => false | Some (l1, _) =>
      forallb (fun x => r_ok (snd x)) l0 && forallb (fun x => r_ok (snd x)) l1 &&
      match kop_run toy toy_hash KR4 p with Ret (r, _) => match r_err r with Some (ESchnorr 1) => true | _ => false end | Panic => false end &&
      is_okd (nth_error l1 0) b1 && is_okd (nth_error l1 3) b2 && is_okd (nth_error l1 6) b3
  end end.
Lemma bl_test_ok : bl_check (run_ops toy toy_hash bl_ops4_0 (bl_party 0)) (run_ops toy toy_hash bl_ops3_1 (bl_party 1)) (bl1 1 (ex_rnd 1)) bl2_1 bl3_1 = true. Proof. vm_cast_no_check (eq_refl true). Qed.
Lemma run_ops_fst C H ops : forall p l p', run_ops C H ops p = Some (l, p') -> map fst l = ops.
Proof.
  induction ops as [|o ops IH]; intros p l p' E; cbn [run_ops] in E; [assert (l = []) as -> by congruence; reflexivity|].
  destruct (kop_run C H o p) as [[r p1]|]; [|discriminate]. destruct (run_ops C H ops p1) as [[l1 p2]|] eqn:R; [|discriminate].
  assert (l = (o, r) :: l1) as -> by congruence. cbn [map fst]. f_equal. exact (IH _ _ _ R).
Qed.
Lemma acc_of r a1 a2 a3 c1 c2 c3 rd m : In (KAcc rd 1 m) (([KR1 r; KAcc 1 1 a1; KAcc 1 2 c1; KR2] ++ [KAcc 2 1 a2; KAcc 2 2 c2; KR3]) ++ [KAcc 3 1 a3; KAcc 3 2 c3]) ->
  (rd = 1%nat /\ m = a1) \/ (rd = 2%nat /\ m = a2) \/ (rd = 3%nat /\ m = a3).
Proof. cbn [app In]. intro K. repeat (destruct K as [K|K]; [first [discriminate K | (injection K; intros; subst; tauto)]|]). contradiction. Qed.
Lemma is_okd_in l k b : is_okd (nth_error l k) b = true -> exists o, In (o, okd b) l.
Proof.
  unfold is_okd. destruct (nth_error l k) as [[o r]|] eqn:E; [|discriminate]. rewrite andb_true_iff. intros [R B]. apply bytes_eqb_eq in B. exists o. apply nth_error_In in E.
  destruct r as [er d]. unfold r_ok in R. cbn [r_err r_data] in *. destruct er; [discriminate|]. subst d. exact E.
Qed.
Lemma bl_check_spec t0 t1 b1 b2 b3 : bl_check t0 t1 b1 b2 b3 = true -> exists l0 p r q l1 p1, t0 = Some (l0, p) /\ t1 = Some (l1, p1) /\
  (forall o x, In (o, x) l0 -> r_ok x = true) /\ (forall o x, In (o, x) l1 -> r_ok x = true) /\ kop_run toy toy_hash KR4 p = Ret (r, q) /\ r_err r = Some (ESchnorr 1) /\
  (exists o, In (o, okd b1) l1) /\ (exists o, In (o, okd b2) l1) /\ (exists o, In (o, okd b3) l1).
Proof.
  unfold bl_check. destruct t0 as [[l0 p]|]; [|discriminate]. destruct t1 as [[l1 p1]|]; [|discriminate].
  rewrite !andb_true_iff. intros [[[[[T0 T1] T2] T3] T4] T5]. destruct (kop_run toy toy_hash KR4 p) as [[r q]|] eqn:K; [|discriminate].
  exists l0, p, r, q, l1, p1. rewrite forallb_forall in T0, T1. repeat (split; [reflexivity|]). split; [intros o x I; exact (T0 _ I)|]. split; [intros o x I; exact (T1 _ I)|]. split; [exact K|].
  split. { destruct (r_err r) as [e|]; [|discriminate]. destruct e as [ | | | |? | | |? | | |? |? |j |? | | | | | |? |? |? |]; try discriminate. destruct j as [|[|j]]; [discriminate|reflexivity|discriminate]. }
  apply is_okd_in in T3. apply is_okd_in in T4. apply is_okd_in in T5. auto.
Qed.
Lemma bl_gen ops0 ops1 pa pb b1 b2 b3 r0 c1 c2 c3 : bl_check (run_ops toy toy_hash ops0 pa) (run_ops toy toy_hash ops1 pb) b1 b2 b3 = true ->
  ops0 = ([KR1 r0; KAcc 1 1 (b64_enc b1); KAcc 1 2 c1; KR2] ++ [KAcc 2 1 (b64_enc b2); KAcc 2 2 c2; KR3]) ++ [KAcc 3 1 (b64_enc b3); KAcc 3 2 c3] ->
  exists l0 p r q l1 p1,
  k_hist toy toy_hash pa l0 p /\ (forall o x, In (o, x) l0 -> r_ok x = true) /\
  kop_run toy toy_hash KR4 p = Ret (r, q) /\ r_err r = Some (ESchnorr 1) /\
  k_hist toy toy_hash pb l1 p1 /\ (forall o x, In (o, x) l1 -> r_ok x = true) /\
  (forall rd m x, In (KAcc rd 1 m, x) l0 -> exists a o, m = b64_enc a /\ In (o, okd a) l1).
Proof.
  intros T EO. destruct (bl_check_spec _ _ _ _ _ T) as (l0 & p & r & q & l1 & p1 & E0 & E1 & T0 & T1 & K & Er & [o3 T3] & [o4 T4] & [o5 T5]).
  exists l0, p, r, q, l1, p1. split; [eapply run_ops_hist; exact E0|]. split; [exact T0|]. split; [exact K|]. split; [exact Er|]. split; [eapply run_ops_hist; exact E1|]. split; [exact T1|].
  intros rd m x I. apply (in_map fst) in I. apply run_ops_fst in E0. rewrite E0 in I. cbn [fst] in I. rewrite EO in I.
  apply acc_of in I. destruct I as [[_ ->]|[[_ ->]|[_ ->]]]; eauto.
Qed.
Lemma bl_ops_shape : bl_ops4_0 = ([KR1 (ex_rnd 0); KAcc 1 1 (b64_enc (bl1 1 (ex_rnd 1))); KAcc 1 2 (b64_enc (bl1 2 (ex_rnd 2))); KR2] ++ [KAcc 2 1 (b64_enc bl2_1); KAcc 2 2 (b64_enc bl2_2); KR3]) ++ [KAcc 3 1 (b64_enc bl3_1); KAcc 3 2 (b64_enc bl3_2)].
Proof. reflexivity. Qed.
(** False of the code: no echo of the round-1 and round-2 messages.  Party 2 opens two different commitments towards parties 0 and 1, so their
    seeds differ, and party 0 names party 1, all of whose calls succeeded and whose three messages arrived unchanged. *)
Theorem C71_equivocation_refuted : exists l0 p r q l1 p1,
  k_hist toy toy_hash (bl_party 0) l0 p /\ (forall o x, In (o, x) l0 -> r_ok x = true) /\
  kop_run toy toy_hash KR4 p = Ret (r, q) /\ r_err r = Some (ESchnorr 1) /\
  k_hist toy toy_hash (bl_party 1) l1 p1 /\ (forall o x, In (o, x) l1 -> r_ok x = true) /\
  (forall rd m x, In (KAcc rd 1 m, x) l0 -> exists a o, m = b64_enc a /\ In (o, okd a) l1).
Proof. exact (bl_gen _ _ _ _ _ _ _ _ _ _ _ bl_test_ok bl_ops_shape). Qed.
(** the hypotheses of the theorems on rounds 3 and 4 can be met: the state of party 0 in that run *)
Theorem C71_example : exists l0 p r q, k_hist toy toy_hash (bl_party 0) l0 p /\ kop_run toy toy_hash KR4 p = Ret (r, q) /\ exists e, r_err r = Some e /\ names e 1.
Proof.
  destruct C71_equivocation_refuted as (l0 & p & r & q & _ & _ & Hh & _ & K & E & _). exists l0, p, r, q. split; [exact Hh|]. split; [exact K|]. exists (ESchnorr 1). split; [exact E|]. right. right. left. reflexivity.
Qed.

(** ** The final round of signing *)
Section Final.
  Variables (C : curve) (D : edlib) (S5 : bytes -> bytes).
  Hypothesis L : curve_laws C.
  Notation n := (c_n C).
  (** its failures name nobody *)
  Theorem C71_final_names_nobody p res p' e j : sg_final C D S5 p = Ret (res, p') -> r_err res = Some e -> ~ names e j.
  Proof.
    assert (LP : forall js acc q e, sf_loop C js acc q = Ret (inl e) -> e = EParse).
    { clear. induction js as [|a js IH]; intros acc q e; cbn [sf_loop]; [discriminate|]. destruct (a =? sp_i q)%nat; [apply IH|].
      destruct (idx (sp_r3 q) (Z.of_nat a)) as [w|]; cbn [obind]; [|discriminate]. destruct (parse_wire w) as [[| | | | | |sb]|]; try discriminate; [|congruence].
      destruct (deref acc); cbn [obind]; [apply IH|discriminate]. }
    unfold sg_final. intros E Er Nm. destruct (sf_loop C _ _ _) as [[e1|acc]|] eqn:K; cbn [obind] in E; [| |discriminate].
    - apply LP in K. subst e1. assert (res = fail EParse) as -> by congruence. cbn [fail r_err] in Er. destruct Nm as [Q|[Q|[Q|Q]]]; congruence.
    - destruct (deref acc) as [sum|]; cbn [obind] in E; [|discriminate]. cbv zeta in E. destruct (deref (sp_r _)) as [r|]; cbn [obind] in E; [|discriminate]. destruct (deref (sv_ed _)) as [A|]; cbn [obind] in E; [|discriminate].
      destruct (ed_verify _ _ _ _ _ _ _); [assert (W : r_err res = None) by (assert (G : forall d (x : sparty), Ret (okd d, x) = Ret (res, p') -> r_err res = None) by (intros d x G; assert (res = okd d) as -> by congruence; reflexivity); exact (G _ _ E)); congruence|].
      assert (res = fail EVerify) as -> by congruence. cbn [fail r_err] in Er. destruct Nm as [Q|[Q|[Q|Q]]]; congruence.
  Qed.
  (** the responses of the other signers, as stored when the final round is called *)
  Definition answers (p : sparty) (s : nat -> Z) : Prop :=
    forall j, (j < length (sp_ids p))%nat -> j <> sp_i p -> exists w, nth_error (sp_r3 p) j = Some w /\ parse_wire w = Some (CS3 (to_be (s j))) /\ 0 <= s j < n.
  Definition others (p : sparty) : list nat := filter (fun j => negb (j =? sp_i p)%nat) (seq 0 (length (sp_ids p))).
  Lemma final_sum p q a s t : sp_i q = sp_i p -> sp_ids q = sp_ids p -> sp_save q = sp_save p -> sp_m q = sp_m p -> sp_r q = sp_r p ->
    0 <= a < n -> sp_si p = Some (le_fixed 32 a) -> sp_si q = Some (le_fixed 32 a) -> answers p s -> answers q t ->
    fold_right Z.add 0 (map s (others p)) mod n = fold_right Z.add 0 (map t (others p)) mod n ->
    forall res p', sg_final C D S5 p = Ret (res, p') -> exists q', sg_final C D S5 q = Ret (res, q').
  Proof.
    intros Ei Ed Es Em Er Ra Ep Eq Ap Aq ES res p'. unfold sg_final. cbn [s_set_number sp_ids sp_si]. rewrite Ed, Ep, Eq.
    rewrite (sf_loop_ok C S5 S5 L s) by (first [exact Ra | intros j I NE; apply in_seq in I; apply Ap; [lia|exact NE]]).
    rewrite (sf_loop_ok C S5 S5 L t) by (first [exact Ra | intros j I NE; apply in_seq in I; apply Aq; [rewrite Ed; lia|exact NE]]).
    cbn [s_set_number sp_i obind deref]. rewrite Ei. fold (others p). rewrite <- (Zplus_mod_idemp_r (fold_right Z.add 0 (map s (others p)))), ES, Zplus_mod_idemp_r.
    cbn [s_set_number s_set_data sp_r sp_m sp_save]. rewrite Er, Em, Es. destruct (deref (sp_r p)) as [r|]; cbn [obind]; [|discriminate]. cbn [s_set_number s_set_data sp_save]. destruct (deref (sv_ed (sp_save p))) as [A|]; cbn [obind]; [|discriminate].
    destruct (ed_verify _ _ _ _ _ _ _); intro E; assert (W : forall (x y : Keygen.res) (u v : sparty), Ret (x, u) = Ret (y, v) -> y = x) by (intros; congruence); rewrite (W _ _ _ _ E); eauto.
  Qed.
  (** False of the code: the failing reply says who is to blame.  Whether signer [j] or signer [k] shifts its response by the same amount, the
      reply of the final round is the same. *)
  Theorem C71_final_blame_refuted p q a h d j k : sp_i q = sp_i p -> sp_ids q = sp_ids p -> sp_save q = sp_save p -> sp_m q = sp_m p -> sp_r q = sp_r p ->
    0 <= a < n -> sp_si p = Some (le_fixed 32 a) -> sp_si q = Some (le_fixed 32 a) -> In j (others p) -> In k (others p) ->
    answers p (fun i => if (i =? j)%nat then (h i + d) mod n else h i) -> answers q (fun i => if (i =? k)%nat then (h i + d) mod n else h i) ->
    forall res p', sg_final C D S5 p = Ret (res, p') -> exists q', sg_final C D S5 q = Ret (res, q').
  Proof.
    intros Ei Ed Es Em Er Ra Ep Eq Ij Ik Ap Aq. apply (final_sum p q a _ _ Ei Ed Es Em Er Ra Ep Eq Ap Aq).
    pose proof (n_gt1 C L) as Hn.
    assert (G : forall i l, NoDup l -> In i l -> fold_right Z.add 0 (map (fun x => if (x =? i)%nat then (h x + d) mod n else h x) l) mod n = (fold_right Z.add 0 (map h l) + d) mod n).
    { clear -Hn. intros i. induction l as [|x l IH]; intros ND I; [destruct I|]. pose proof (NoDup_cons_iff x l) as NC. apply NC in ND. destruct ND as [NI ND]. cbn [map fold_right]. destruct I as [->|I].
      - rewrite Nat.eqb_refl. rewrite Zplus_mod_idemp_l. f_equal. assert (map (fun x => if (x =? i)%nat then (h x + d) mod n else h x) l = map h l) as ->; [|ring].
        apply map_ext_in. intros y Iy. destruct (Nat.eqb_spec y i) as [->|]; [contradiction|reflexivity].
      - destruct (Nat.eqb_spec x i) as [->|]; [contradiction|]. rewrite <- Zplus_mod_idemp_r, (IH ND I), Zplus_mod_idemp_r. f_equal. ring. }
    assert (ND : NoDup (others p)) by (unfold others; apply NoDup_filter, seq_NoDup).
    rewrite (G j _ ND Ij), (G k _ ND Ik). reflexivity.
  Qed.
End Final.
