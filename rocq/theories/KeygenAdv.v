(** KeygenAdv.v -- one key-generation party against arbitrary peers: the calls on a session as a small
    language, inversion of the round loops, and the effect of any history of calls on the message slots. *)
From Verif Require Import Base BigInt HashFrame Text Wire Messages PartyID Curve Schnorr Json Save Keygen Xor KeygenNet.
From Coq Require Import Permutation.

(** ** Calls on one keygen session (eddsa.go 22-70): everything a caller can do to it *)
Inductive kop :=
| KR1 (r : kg_rand) | KR2 | KR3 | KR4           (* KeygenRound{1..4}Exec; r is the randomness drawn *)
| KAcc (r : nat) (from : Z) (msg : bytes)       (* KeygenRound{r}Accept, r = 1, 2, 3 *)
| KFin (r : nat)                                (* KeygenRound{r}Finish *)
| KChn (codes : bytes).                         (* SaveChainCodes *)

Section Ops.
  Variable C : curve.
  Variable H : bytes -> bytes.

  Definition kop_run (o : kop) (p : kparty) : outcome (res * kparty) :=
    match o with
    | KR1 r => kg_r1_exec C H r p
    | KR2 => kg_r2_exec p
    | KR3 => kg_r3_exec C H p
    | KR4 => kg_r4_exec C H p
    | KAcc r from msg => kg_accept r from msg p
    | KFin r => kg_finish r p
    | KChn codes => save_chain_codes codes p
    end.
  (** a history of calls, with the result of each *)
  Inductive k_hist : kparty -> list (kop * res) -> kparty -> Prop :=
  | kh_nil p : k_hist p [] p
  | kh_snoc p l p1 o r p2 : k_hist p l p1 -> kop_run o p1 = Ret (r, p2) -> k_hist p (l ++ [(o, r)]) p2.

  (** ** Round 2 *)
  Lemma r2_loop_inv js p p' : kg_r2_loop js p = Ret (None, p') ->
    (forall j, In j js -> exists v, parse_wire (nth j (kp_r1 p) []) = Some (CKg1 v)) /\
    (forall v, (forall j, In j js -> parse_wire (nth j (kp_r1 p) []) = Some (CKg1 (v j))) -> p' = k_set_V (fold_upd v js (kp_V p)) p).
  Proof.
    intro E. assert (A : forall j, In j js -> exists v, parse_wire (nth j (kp_r1 p) []) = Some (CKg1 v)).
    { revert p E. induction js as [|j js IH]; intros p E k Hk; [destruct Hk|]. cbn [kg_r2_loop] in E.
      destruct (parse_wire (nth j (kp_r1 p) [])) as [[v| | | | | |]|] eqn:P; try discriminate.
      destruct Hk as [->|Hk]; [eauto|]. apply (IH _ E k Hk). }
    split; [exact A|]. intros v Hv. rewrite (r2_loop_ok v) in E by exact Hv. inversion E. reflexivity.
  Qed.

  Definition commit_of (w : bytes) : bytes := match parse_wire w with Some (CKg1 v) => v | _ => [] end.

  Lemma r2_exec_inv p res p' : kg_r2_exec p = Ret (res, p') -> r_ok res = true ->
    (forall j, (j < length (kp_r1 p))%nat -> parse_wire (nth j (kp_r1 p) []) = Some (CKg1 (commit_of (nth j (kp_r1 p) [])))) /\
    kp_V p' = fold_upd (fun j => commit_of (nth j (kp_r1 p) [])) (seq 0 (length (kp_r1 p))) (kp_V p) /\
    kp_r1 p' = kp_r1 p /\ kp_i p' = kp_i p /\ kp_ssid p' = kp_ssid p /\ kp_srid p' = kp_srid p /\ kp_save p' = kp_save p.
  Proof.
    unfold kg_r2_exec. intros E Ok. destruct (kg_r2_loop _ _) as [[e p1]|] eqn:Lp; cbn [obind] in E; [|discriminate].
    destruct e as [e|]; [inversion E; subst; discriminate|].
    apply r2_loop_inv in Lp. destruct Lp as [A B]. cbn [k_set_number kp_r1] in A, B.
    assert (A' : forall j, In j (seq 0 (length (kp_r1 p))) -> parse_wire (nth j (kp_r1 p) []) = Some (CKg1 (commit_of (nth j (kp_r1 p) [])))).
    { intros j Hj. destruct (A j Hj) as [v Hv]. unfold commit_of. rewrite Hv. reflexivity. }
    specialize (B _ A'). subst p1. cbn [k_set_V k_set_number kp_save kp_i kp_A] in E.
    repeat match type of E with obind ?m _ = _ => destruct m; cbn [obind] in E; [|discriminate] end.
    inversion E; subst. cbn. repeat split. intros j Hj. apply A'. apply in_seq. lia.
  Qed.

  (** ** Round 3 *)
  (** what a round-2 message reveals *)
  Definition open_of (w : bytes) : kg2 :=
    match parse_wire w with
    | Some (CKg2 m) => m
    | _ => {| k2_ssid := []; k2_pi := 0; k2_srid := []; k2_xx := []; k2_xy := []; k2_ax := []; k2_ay := []; k2_u := []; k2_pn := []; k2_ps := []; k2_pt := [] |}
    end.
  Definition open_X (w : bytes) : point := (of_be (k2_xx (open_of w)), of_be (k2_xy (open_of w))).
  Definition open_A (w : bytes) : point := (of_be (k2_ax (open_of w)), of_be (k2_ay (open_of w))).
  Definition open_srid (w : bytes) : bytes := k2_srid (open_of w).
  Definition open_u (w : bytes) : bytes := k2_u (open_of w).

  (** the checks of round 3 on the message w of party j, against the recorded commitment v *)
  Definition opening_ok (ssid : bytes) (j : nat) (v w : bytes) : Prop :=
    (exists m, parse_wire w = Some (CKg2 m)) /\
    k2_ssid (open_of w) = ssid /\ on C (open_X w) = true /\ on C (open_A w) = true /\
    v = commit H ssid j (open_srid w) (open_X w) (open_A w) (open_u w).

  Lemma new_point_some a b q : new_point C a b = Some q -> q = (a, b) /\ on C q = true.
  Proof. unfold new_point. destruct (c_on C a b) eqn:E; [|discriminate]. intro Q; inversion Q. split; auto. Qed.

  Lemma r3_one_inv j p p' : kg_r3_one C H j p = Ret (None, p') ->
    opening_ok (kp_ssid p) j (nth j (kp_V p) []) (nth j (kp_r2 p) []) /\
    kp_r2 p' = kp_r2 p /\ kp_V p' = kp_V p /\ kp_ssid p' = kp_ssid p /\ kp_i p' = kp_i p.
  Proof.
    unfold kg_r3_one. intro E. unfold opening_ok, open_X, open_A, open_srid, open_u, open_of.
    destruct (parse_wire (nth j (kp_r2 p) [])) as [[| m | | | | |]|] eqn:P; try discriminate.
    destruct (new_point C (of_be (k2_ax m)) (of_be (k2_ay m))) as [A|] eqn:NA; [|discriminate].
    cbn [pl_ssid pl_srid pl_u kp_ssid k_set_save k_set_payload kp_V] in E.
    destruct (new_point C (of_be (k2_xx m)) (of_be (k2_xy m))) as [X|] eqn:NX; [|discriminate].
    apply new_point_some in NA, NX. destruct NA as [-> NA], NX as [-> NX].
    destruct (bytes_eqb_spec (k2_ssid m) (kp_ssid p)) as [Es|]; [|discriminate].
    destruct (bytes_eqb_spec (commit H (kp_ssid p) j (k2_srid m) (of_be (k2_xx m), of_be (k2_xy m)) (of_be (k2_ax m), of_be (k2_ay m)) (k2_u m)) (nth j (kp_V p) [])) as [Ev|]; [|discriminate].
    inversion E; subst p'; cbn. repeat split; auto. eauto.
  Qed.

  Lemma r3_loop_inv js p p' : kg_r3_loop C H js p = Ret (None, p') ->
    (forall j, In j js -> j <> kp_i p -> opening_ok (kp_ssid p) j (nth j (kp_V p) []) (nth j (kp_r2 p) [])).
  Proof.
    revert p. induction js as [|j js IH]; intros p E k Hk Hki; [destruct Hk|]. cbn [kg_r3_loop] in E.
    destruct (Nat.eqb_spec j (kp_i p)) as [Ej|Ej].
    - destruct Hk as [->|Hk]; [congruence|]. apply (IH p E k Hk Hki).
    - destruct (kg_r3_one C H j p) as [[e p1]|] eqn:One; cbn [obind] in E; [|discriminate].
      destruct e as [e|]; [discriminate|]. apply r3_one_inv in One. destruct One as (O & E2 & EV & Es & Ei).
      destruct Hk as [->|Hk]; [exact O|]. specialize (IH p1 E k Hk). rewrite E2, EV, Es, Ei in IH. apply IH. exact Hki.
  Qed.

  Definition r3_result (p : kparty) : kparty :=
    r3_state (fun j => open_X (nth j (kp_r2 p) [])) (fun j => open_A (nth j (kp_r2 p) []))
             (fun j => open_srid (nth j (kp_r2 p) [])) (fun j => open_u (nth j (kp_r2 p) []))
             (kp_i p) (seq 0 (length (kp_r2 p))) p.

  Lemma opening_new_point ssid j v w : opening_ok ssid j v w ->
    parse_wire w = Some (CKg2 (open_of w)) /\
    new_point C (of_be (k2_ax (open_of w))) (of_be (k2_ay (open_of w))) = Some (open_A w) /\
    new_point C (of_be (k2_xx (open_of w))) (of_be (k2_xy (open_of w))) = Some (open_X w).
  Proof.
    intros ((m & P) & _ & HX & HA & _). unfold open_of at 1. rewrite P. split; [reflexivity|].
    unfold on, open_X, open_A, px, py in *. cbn [fst snd] in *. unfold new_point. rewrite HX, HA. auto.
  Qed.

  Lemma r3_exec_inv p res p' : kg_r3_exec C H p = Ret (res, p') -> r_ok res = true ->
    (forall j, (j < length (kp_r2 p))%nat -> j <> kp_i p -> opening_ok (kp_ssid p) j (nth j (kp_V p) []) (nth j (kp_r2 p) [])) /\
    exists r3 X A c tau x, p' = k_set_r3 r3 (k_set_number 3 (r3_result p)) /\
      nth_error (sv_pub (kp_save (r3_result p))) (kp_i p) = Some (Some X) /\ kp_A p = Some A /\
      kg_challenge C H (kp_ssid p) (kp_srid (r3_result p)) (kp_i p) X A = Ret c /\ kp_tau p = Some tau /\ sv_priv (kp_save p) = Some x /\
      r_data res = wire_bytes (CKg3 (to_be (sch_prove (c_n C) tau c x)) [] []) /\
      store (kp_r3 p) (Z.of_nat (kp_i p)) (r_data res) = Ret r3.
  Proof.
    unfold kg_r3_exec. intros E Ok. cbn [k_set_number kp_r2] in E.
    destruct (kg_r3_loop C H _ _) as [[e p1]|] eqn:Lp; cbn [obind] in E; [|discriminate].
    destruct e as [e|]; [inversion E; subst; discriminate|].
    pose proof (r3_loop_inv _ _ _ Lp) as A. cbn [k_set_number kp_r2 kp_ssid kp_V kp_i] in A.
    assert (A' : forall j, (j < length (kp_r2 p))%nat -> j <> kp_i p -> opening_ok (kp_ssid p) j (nth j (kp_V p) []) (nth j (kp_r2 p) [])).
    { intros j Hj. apply A. apply in_seq. lia. }
    split; [exact A'|].
    rewrite (r3_loop_ok C H (fun j => open_X (nth j (kp_r2 p) [])) (fun j => open_A (nth j (kp_r2 p) []))
             (fun j => open_srid (nth j (kp_r2 p) [])) (fun j => open_u (nth j (kp_r2 p) [])) (fun j => open_of (nth j (kp_r2 p) []))) in Lp.
    2:{ intros j Hj Hji. cbn [k_set_number kp_r2 kp_ssid kp_V kp_i] in *. specialize (A j Hj Hji).
        destruct (opening_new_point _ _ _ _ A) as (P & NA & NX). destruct A as (_ & Es & _ & _ & Ev).
        repeat (split; [assumption || reflexivity|]). exact Ev. }
    assert (Ep : p1 = k_set_number 3 (r3_result p)) by (inversion Lp; reflexivity). subst p1. clear Lp.
    cbn [k_set_number kp_save kp_i kp_A kp_ssid kp_srid kp_tau kp_r3] in E.
    change (kp_i (r3_result p)) with (kp_i p) in E. change (kp_A (r3_result p)) with (kp_A p) in E.
    change (kp_tau (r3_result p)) with (kp_tau p) in E. change (sv_priv (kp_save (r3_result p))) with (sv_priv (kp_save p)) in E.
    change (kp_ssid (r3_result p)) with (kp_ssid p) in E. change (kp_r3 (r3_result p)) with (kp_r3 p) in E.
    rewrite idx_nat in E. destruct (nth_error (sv_pub (kp_save (r3_result p))) (kp_i p)) as [[X|]|] eqn:EX; cbn [obind deref] in E; try discriminate.
    destruct (kp_A p) as [Ap|] eqn:EA; cbn [obind deref] in E; [|discriminate].
    destruct (kg_challenge C H (kp_ssid p) (kp_srid (r3_result p)) (kp_i p) X Ap) as [c|] eqn:Ec; cbn [obind] in E; [|discriminate].
    destruct (kp_tau p) as [tau|] eqn:Et; cbn [obind deref] in E; [|discriminate].
    destruct (sv_priv (kp_save p)) as [x|] eqn:Ex; cbn [obind deref] in E; [|discriminate].
    destruct (store (kp_r3 p) (Z.of_nat (kp_i p)) _) as [r3|] eqn:Er; cbn [obind] in E; [|discriminate].
    inversion E; subst res p'. exists r3, X, Ap, c, tau, x. repeat split; auto.
  Qed.

  (** ** Round 4 *)
  Definition proof_of (w : bytes) : option Z := match parse_wire w with Some (CKg3 sch _ _) => Some (of_be sch) | _ => None end.

  (** the checks of round 4 for party j *)
  Definition proof_ok (p : kparty) (j : nat) : Prop :=
    exists X pl c z, nth j (sv_pub (kp_save p)) None = Some X /\ nth j (kp_payload p) None = Some pl /\
      kg_challenge C H (kp_ssid p) (kp_srid p) j X (pl_A pl) = Ret c /\
      proof_of (nth j (kp_r3 p) []) = Some z /\ sch_verify C (pl_A pl) X c z = Ret true.

  Lemma r4_one_inv j p : kg_r4_one C H j p = Ret None -> proof_ok p j.
  Proof.
    unfold kg_r4_one, proof_ok, proof_of. destruct (parse_wire (nth j (kp_r3 p) [])) as [ct|] eqn:P; [|discriminate].
    destruct (nth j (sv_pub (kp_save p)) None) as [X|] eqn:EX; cbn [deref obind]; [|discriminate].
    destruct (nth j (kp_payload p) None) as [pl|] eqn:EP; cbn [deref obind]; [|discriminate].
    destruct (kg_challenge C H (kp_ssid p) (kp_srid p) j X (pl_A pl)) as [c|] eqn:Ec; cbn [obind]; [|discriminate].
    destruct ct as [| | sch mods prm | | | |]; try discriminate.
    destruct (sch_verify C (pl_A pl) X c (of_be sch)) as [[]|] eqn:V; cbn [obind]; try discriminate.
    intros _. exists X, pl, c, (of_be sch). auto.
  Qed.
  Lemma r4_loop_inv js p : kg_r4_loop C H js p = Ret None -> forall j, In j js -> j <> kp_i p -> proof_ok p j.
  Proof.
    induction js as [|j js IH]; intros E k Hk Hki; [destruct Hk|]. cbn [kg_r4_loop] in E.
    destruct (Nat.eqb_spec j (kp_i p)) as [Ej|Ej].
    - destruct Hk as [->|Hk]; [congruence|auto].
    - destruct (kg_r4_one C H j p) as [e|] eqn:One; cbn [obind] in E; [|discriminate]. destruct e as [e|]; [discriminate|].
      destruct Hk as [->|Hk]; [apply r4_one_inv; exact One|auto].
  Qed.

  Lemma sum_points_fold j acc l y : sum_points C j acc l = Ret (inr y) ->
    exists ps, l = map Some ps /\ fold_left (fun a q => match a with Some a => pt_add C a q | None => None end) ps (Some acc) = Some y.
  Proof.
    revert j acc; induction l as [|o l IH]; intros j acc E; cbn [sum_points] in E.
    - inversion E; subst. exists []. auto.
    - destruct o as [q|]; [|discriminate]. destruct (pt_add C acc q) as [r|] eqn:A; [|discriminate].
      destruct (IH _ _ E) as (ps & -> & F). exists (q :: ps). split; [reflexivity|]. cbn. rewrite A. exact F.
  Qed.

  Lemma r4_exec_inv p res p' : kg_r4_exec C H p = Ret (res, p') -> r_ok res = true ->
    (forall j, (j < length (kp_r3 p))%nat -> j <> kp_i p -> proof_ok p j) /\
    exists q qs y, sv_pub (kp_save p) = map Some (q :: qs) /\
      fold_left (fun a r => match a with Some a => pt_add C a r | None => None end) qs (Some q) = Some y /\
      p' = k_set_save (set_ed (Some y) (kp_save p)) (k_set_number 4 p) /\ r_data res = save_enc (kp_save p').
  Proof.
    unfold kg_r4_exec. intros E Ok. cbn [k_set_number kp_r3] in E.
    destruct (kg_r4_loop C H _ _) as [e|] eqn:Lp; cbn [obind] in E; [|discriminate].
    destruct e as [e|]; [inversion E; subst; discriminate|].
    split.
    { intros j Hj Hji. apply (r4_loop_inv _ _ Lp j); [apply in_seq; lia|exact Hji]. }
    cbn [k_set_number kp_save] in E. destruct (sum_pub C (sv_pub (kp_save p))) as [[e|y]|] eqn:S; cbn [obind] in E; try discriminate.
    { inversion E; subst; discriminate. }
    unfold sum_pub in S. destruct (sv_pub (kp_save p)) as [|[q|] l] eqn:EP; try discriminate.
    apply sum_points_fold in S. destruct S as (qs & -> & F). inversion E; subst res p'.
    exists q, qs, y. repeat split; auto.
  Qed.

  (** ** Slots and histories *)
  (** the last message a caller handed to Accept for round r and party j that was valid base64 *)
  Fixpoint last_accept (r j : nat) (l : list (kop * res)) : option bytes :=
    match l with
    | [] => None
    | (o, _) :: t =>
      match last_accept r j t with
      | Some w => Some w
      | None => match o with
                | KAcc r' from msg => if (r' =? r)%nat && (from =? Z.of_nat j) then b64_dec msg else None
                | _ => None
                end
      end
    end.
  Lemma last_accept_app r j l o res : last_accept r j (l ++ [(o, res)]) =
    match (match o with KAcc r' from msg => if (r' =? r)%nat && (from =? Z.of_nat j) then b64_dec msg else None | _ => None end) with
    | Some w => Some w | None => last_accept r j l end.
  Proof.
    induction l as [|[o' r'] l IH]; [cbn; destruct o; try reflexivity; destruct (_ && _); try reflexivity; destruct (b64_dec msg); reflexivity|].
    cbn [app last_accept]. rewrite IH.
    destruct (match o with KAcc r'0 from msg => if (r'0 =? r)%nat && (from =? Z.of_nat j) then b64_dec msg else None | _ => None end); reflexivity.
  Qed.
End Ops.
