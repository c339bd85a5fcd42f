(** OnsignHist.v -- the calls on one signing session as a small language, what each call may change, and the content
    of the message slots after any history. *)
From Verif Require Import Base BigInt HashFrame Text Wire Messages PartyID Curve Json Save Keygen KeygenNet NumTh Paillier RangeProofs Ckd Subset Onsign.

(** ** Calls on one signing session (eddsa.go 78-130): everything a caller can do to it *)
Inductive sop :=
| SR1 (r : s1_rand) | SR2 (d : nat -> pdraws) | SR3 (z : nat -> Z) | SFinal   (* OnSignRound{1,2,3}Exec, OnSignFinalExec with the randomness drawn *)
| SGet1 (to : Z) | SGet2 (to : Z)                                             (* GetOnSignRound{1,2}Msg *)
| SAcc (r : nat) (from : Z) (msg : bytes)                                     (* OnSignRound{r}MsgAccept, r = 1, 2, else 3 *)
| SFin (r : nat).                                                             (* OnSignRound{r}Finish *)

(** the four message arrays *)
Inductive skind := K11 | K12 | K2 | K3.
Definition s_slots (k : skind) (p : sparty) : list bytes :=
  match k with K11 => sp_r11 p | K12 => sp_r12 p | K2 => sp_r2 p | K3 => sp_r3 p end.
Definition s_set_slots (k : skind) (v : list bytes) (p : sparty) : sparty :=
  match k with K11 => s_set_r11 v p | K12 => s_set_r12 v p | K2 => s_set_r2 v p | K3 => s_set_r3 v p end.
Definition skind_eqb (a b : skind) : bool := match a, b with K11, K11 | K12, K12 | K2, K2 | K3, K3 => true | _, _ => false end.
Lemma skind_eqb_spec a b : reflect (a = b) (skind_eqb a b). Proof. destruct a, b; constructor; congruence. Qed.
Lemma s_slots_set k k' v p : s_slots k (s_set_slots k' v p) = if skind_eqb k' k then v else s_slots k p.
Proof. destruct k, k'; reflexivity. Qed.

(** ** What an Accept call is meant to do, read off its arguments alone: the slot array it writes, and the bytes *)
Definition acc_effect (r : nat) (msg : bytes) : option (skind * bytes) :=
  match b64_dec msg with
  | None => None
  | Some w => match r with
              | 1%nat => match parse_wire w with Some (CS11 _) => Some (K11, w) | Some (CS12 _) => Some (K12, w) | _ => None end
              | 2%nat => Some (K2, w)
              | _ => Some (K3, w)
              end
  end.
(** what call [o] writes into slot [j] of array [k], if it is not party j's own call *)
Definition sop_write (o : sop) (k : skind) (j : nat) : option bytes :=
  match o with
  | SAcc r from msg => match acc_effect r msg with
                       | Some (k', w) => if skind_eqb k' k && (from =? Z.of_nat j) then Some w else None
                       | None => None end
  | _ => None
  end.
(** the last such write of a history *)
Fixpoint s_last (k : skind) (j : nat) (l : list (sop * res)) : option bytes :=
  match l with
  | [] => None
  | (o, _) :: t => match s_last k j t with Some w => Some w | None => sop_write o k j end
  end.
Lemma s_last_app k j l o r : s_last k j (l ++ [(o, r)]) = match sop_write o k j with Some w => Some w | None => s_last k j l end.
Proof.
  induction l as [|[o' r'] l IH]; cbn [app s_last]; [destruct (sop_write o k j); reflexivity|]. rewrite IH.
  destruct (sop_write o k j); [reflexivity|]. reflexivity.
Qed.

Section Ops.
  Variables (C : curve) (D : edlib) (B S5 : bytes -> bytes).

  Definition sop_run (o : sop) (p : sparty) : outcome (res * sparty) :=
    match o with
    | SR1 r => sg_r1_exec C B r p
    | SR2 d => sg_r2_exec C B d p
    | SR3 z => sg_r3_exec C D B S5 z p
    | SFinal => sg_final C D S5 p
    | SGet1 to => sg_get1 to p
    | SGet2 to => sg_get2 to p
    | SAcc 1 from msg => sg_accept1 from msg p
    | SAcc 2 from msg => sg_accept2 from msg p
    | SAcc _ from msg => sg_accept3 from msg p
    | SFin 1 => sg_finish1 p
    | SFin 2 => sg_finish2 p
    | SFin _ => sg_finish3 p
    end.
  Inductive s_hist : sparty -> list (sop * res) -> sparty -> Prop :=
  | sh_nil p : s_hist p [] p
  | sh_snoc p l p1 o r p2 : s_hist p l p1 -> sop_run o p1 = Ret (r, p2) -> s_hist p (l ++ [(o, r)]) p2.
  Lemma s_hist_app p l1 p1 l2 p2 : s_hist p l1 p1 -> s_hist p1 l2 p2 -> s_hist p (l1 ++ l2) p2.
  Proof.
    intros H1 H2. induction H2 as [|p1' l p3 o res p4 Hh IH Run]; [rewrite app_nil_r; exact H1|].
    rewrite app_assoc. econstructor; [apply IH; exact H1|exact Run].
  Qed.
  Fixpoint s_run (ops : list sop) (p : sparty) : option (list (sop * res) * sparty) :=
    match ops with
    | [] => Some ([], p)
    | o :: t => match sop_run o p with
                | Ret (r, p1) => match s_run t p1 with Some (l, p2) => Some ((o, r) :: l, p2) | None => None end
                | Panic => None
                end
    end.
  Lemma s_run_hist ops p l p' : s_run ops p = Some (l, p') -> s_hist p l p'.
  Proof.
    revert p l. induction ops as [|o ops IH]; intros p l E; cbn [s_run] in E; [inversion E; constructor|].
    destruct (sop_run o p) as [[r p1]|] eqn:R; [|discriminate].
    destruct (s_run ops p1) as [[l1 p2]|] eqn:R1; [|discriminate]. inversion E; subst.
    change ((o, r) :: l1) with ([(o, r)] ++ l1). eapply s_hist_app; [|apply IH; exact R1].
    change [(o, r)] with ([] ++ [(o, r)]). econstructor; [constructor|exact R].
  Qed.

  (** ** Accept calls, in one formula *)
  Definition acc_err (r : nat) (msg : bytes) : option gerr :=
    match b64_dec msg with
    | None => Some EB64
    | Some w => match parse_wire w with
                | None => Some EParse
                | Some c => match r, c with
                            | 1%nat, CS11 _ | 1%nat, CS12 _ | 2%nat, CS2 _ _ _ => None
                            | 1%nat, _ | 2%nat, _ => Some EType
                            | _, CS3 _ => None
                            | _, _ => Some EType
                            end
                end
    end.
  Lemma accept_eq r from msg p : sop_run (SAcc r from msg) p =
    match acc_effect r msg with
    | None => Ret (match acc_err r msg with Some e => fail e | None => ok0 end, p)
    | Some (k, w) => let! l := store (s_slots k p) from w in
                     Ret (match acc_err r msg with Some e => fail e | None => ok0 end, s_set_slots k l p)
    end.
  Proof.
    destruct r as [|[|[|r]]]; cbn [sop_run]; unfold sg_accept1, sg_accept2, sg_accept3, acc_effect, acc_err;
      destruct (b64_dec msg) as [w|]; try reflexivity; destruct (parse_wire w) as [[]|] eqn:P; cbn [s_slots s_set_slots]; try reflexivity;
      destruct (store _ _ _); reflexivity.
  Qed.

  (** ** Well-formed sessions *)
  Record swf (N i : nat) (p : sparty) : Prop := {
    sw_i : sp_i p = i; sw_lt : (i < N)%nat;
    sw_slots : forall k, length (s_slots k p) = N;
    sw_ids : length (sp_ids p) = N; sw_K : length (sp_K p) = N;
    sw_o12 : length (sp_out12 p) = N; sw_o2 : length (sp_out2 p) = N }.

  (** [p'] differs from [p] in the slots of party i, and in nothing that decides the shape *)
  Definition own_only (N i : nat) (p p' : sparty) : Prop :=
    swf N i p' /\ forall k j, j <> i -> nth_error (s_slots k p') j = nth_error (s_slots k p) j.
  Lemma own_only_refl N i p : swf N i p -> own_only N i p p. Proof. split; auto. Qed.
  Lemma own_only_trans N i p q r : own_only N i p q -> own_only N i q r -> own_only N i p r.
  Proof. intros [_ F] [W G]. split; [exact W|]. intros. rewrite G, F; auto. Qed.

  Lemma s1_loop_frame js k rho K N d p e p' : s1_loop C B js k rho K N d p = Ret (e, p') ->
    exists o r, length o = length (sp_out12 p) /\ length r = length (sp_r12 p) /\
      (forall j, j <> sp_i p -> nth_error r j = nth_error (sp_r12 p) j) /\ p' = s_set_r12 r (s_set_out12 o p).
  Proof.
    revert p; induction js as [|j js IH]; intros p E; cbn [s1_loop] in E.
    - inversion E; subst. exists (sp_out12 p'), (sp_r12 p'). repeat split; auto. destruct p'; reflexivity.
    - destruct (get_ped p j) as [pd|]; cbn [obind] in E; [|discriminate].
      destruct (enc_new _ _ _ _ _ _ _ _ _) as [[m|]|]; cbn [obind] in E; [| |discriminate].
      2:{ inversion E; subst. exists (sp_out12 p'), (sp_r12 p'). repeat split; auto. destruct p'; reflexivity. }
      destruct (store (sp_out12 p) _ _) as [out|] eqn:E1; cbn [obind] in E; [|discriminate].
      apply store_Ret in E1. destruct E1 as [B1 ->].
      destruct (j =? _)%nat.
      + destruct (store (sp_r12 _) _ _) as [own|] eqn:E2; cbn [obind] in E; [|discriminate].
        apply store_Ret in E2. destruct E2 as [B2 ->].
        destruct (IH _ E) as (o & r & Ho & Hr & Hf & ->). exists o, r. cbn in *. rewrite ?upd_length in *.
        repeat split; auto. intros j0 Hj. rewrite Hf by exact Hj. apply nth_error_upd_diff. lia.
      + destruct (IH _ E) as (o & r & Ho & Hr & Hf & ->). exists o, r. cbn in *. rewrite ?upd_length in *.
        repeat split; auto.
  Qed.
  Lemma s2_one_frame j p e p' : s2_one C B j p = Ret (e, p') ->
    exists Ks, length Ks = length (sp_K p) /\ p' = s_set_K Ks p.
  Proof.
    unfold s2_one. intro E.
    destruct (parse_wire (nth j (sp_r11 p) [])) as [[]|]; try discriminate.
    2:{ inversion E; subst. exists (sp_K p'). split; auto. destruct p'; reflexivity. }
    destruct (store _ _ _) as [Ks|] eqn:E1; cbn [obind] in E; [|discriminate]. apply store_Ret in E1. destruct E1 as [B1 ->].
    eexists. split; [apply upd_length|].
    destruct (idx _ _) as [w2|]; cbn [obind] in E; [|discriminate].
    destruct (parse_wire w2) as [[]|]; try discriminate; [|inversion E; reflexivity].
    destruct (encmsg_dec _) as [m|]; [|inversion E; reflexivity].
    destruct (get_N _ _) as [N|]; cbn [obind] in E; [|discriminate].
    destruct (get_ped _ _) as [pd|]; cbn [obind] in E; [|discriminate].
    destruct (enc_verify _ _ _ _ _ _ _) as [ok|]; cbn [obind] in E; [|discriminate]. inversion E. reflexivity.
  Qed.
  Lemma s2_verify_frame js p e p' : s2_verify C B js p = Ret (e, p') ->
    exists Ks, length Ks = length (sp_K p) /\ p' = s_set_K Ks p.
  Proof.
    revert p; induction js as [|j js IH]; intros p E; cbn [s2_verify] in E.
    - inversion E; subst. exists (sp_K p'). split; auto. destruct p'; reflexivity.
    - destruct (j =? sp_i p)%nat; [apply IH; exact E|].
      destruct (s2_one C B j p) as [[e1 p1]|] eqn:One; cbn [obind] in E; [|discriminate].
      apply s2_one_frame in One. destruct One as (Ks & HK & ->).
      destruct e1; [inversion E; subst; eauto|].
      destruct (IH _ E) as (Ks' & HK' & ->). exists Ks'. cbn in *. split; [congruence|reflexivity].
  Qed.
  Lemma s2_loop_frame js k Ri N d p e p' : s2_loop C B js k Ri N d p = Ret (e, p') ->
    exists o r, length o = length (sp_out2 p) /\ length r = length (sp_r2 p) /\
      (forall j, j <> sp_i p -> nth_error r j = nth_error (sp_r2 p) j) /\ p' = s_set_r2 r (s_set_out2 o p).
  Proof.
    revert p; induction js as [|j js IH]; intros p E; cbn [s2_loop] in E.
    - inversion E; subst. exists (sp_out2 p'), (sp_r2 p'). repeat split; auto. destruct p'; reflexivity.
    - destruct (get_ped p j) as [pd|]; cbn [obind] in E; [|discriminate].
      destruct (idx (sp_K p) _) as [K|]; cbn [obind] in E; [|discriminate].
      destruct (log_new_opt _ _ _ _ _ _ _ _ _ _) as [[m|]|]; cbn [obind] in E; [| |discriminate].
      2:{ inversion E; subst. exists (sp_out2 p'), (sp_r2 p'). repeat split; auto. destruct p'; reflexivity. }
      destruct (deref K) as [Kv|]; cbn [obind] in E; [|discriminate].
      destruct (log_verify _ _ _ _ _ _ _ _) as [ok|]; cbn [obind] in E; [|discriminate].
      destruct ok; cbn [negb] in E.
      2:{ inversion E; subst. exists (sp_out2 p'), (sp_r2 p'). repeat split; auto. destruct p'; reflexivity. }
      destruct (store (sp_out2 p) _ _) as [out|] eqn:E1; cbn [obind] in E; [|discriminate].
      apply store_Ret in E1. destruct E1 as [B1 ->].
      destruct (j =? _)%nat.
      + destruct (store (sp_r2 _) _ _) as [own|] eqn:E2; cbn [obind] in E; [|discriminate].
        apply store_Ret in E2. destruct E2 as [B2 ->].
        destruct (IH _ E) as (o & r & Ho & Hr & Hf & ->). exists o, r. cbn in *. rewrite ?upd_length in *.
        repeat split; auto. intros j0 Hj. rewrite Hf by exact Hj. apply nth_error_upd_diff. lia.
      + destruct (IH _ E) as (o & r & Ho & Hr & Hf & ->). exists o, r. cbn in *. rewrite ?upd_length in *.
        repeat split; auto.
  Qed.

  (** what each Exec call leaves alone: the fields it does not mention keep their value *)
  Lemma r1_frame r p res p' : sg_r1_exec C B r p = Ret (res, p') ->
    exists p1 Ks r11 o r12, (p1 = p \/ exists ed, p1 = s_set_k (Some (s1_k r)) (s_set_ed ed p) \/ p1 = s_set_rho (Some (s1_rho r)) (s_set_k (Some (s1_k r)) (s_set_ed ed p))) /\
      length Ks = length (sp_K p) /\ length r11 = length (sp_r11 p) /\ length o = length (sp_out12 p) /\ length r12 = length (sp_r12 p) /\
      (forall j, j <> sp_i p -> nth_error r11 j = nth_error (sp_r11 p) j) /\
      (forall j, j <> sp_i p -> nth_error r12 j = nth_error (sp_r12 p) j) /\
      (forall j, j <> sp_i p -> nth_error Ks j = nth_error (sp_K p) j) /\
      p' = s_set_r12 r12 (s_set_out12 o (s_set_r11 r11 (s_set_K Ks (s_set_ssid sg_ssid (s_set_number 1 p1))))).
  Proof.
    unfold sg_r1_exec. intro E.
    destruct (sum_pub _ _) as [[e|y]|]; cbn [obind] in E; [| |discriminate].
    { inversion E; subst. exists p, (sp_K p), (sp_r11 p), (sp_out12 p), (sp_r12 p). repeat split; auto. }
    destruct (get_N _ _) as [N|]; cbn [obind] in E; [|discriminate].
    destruct (pal_encrypt _ _ _) as [K|].
    2:{ inversion E; subst. exists (s_set_k (Some (s1_k r)) (s_set_ed (Some y) p)), (sp_K p), (sp_r11 p), (sp_out12 p), (sp_r12 p).
        repeat split; auto. right. exists (Some y). auto. }
    destruct (store (sp_K _) _ _) as [Ks|] eqn:E1; cbn [obind] in E; [|discriminate]. apply store_Ret in E1. destruct E1 as [B1 EK].
    destruct (store (sp_r11 _) _ _) as [r11|] eqn:E2; cbn [obind] in E; [|discriminate]. apply store_Ret in E2. destruct E2 as [B2 ER].
    destruct (s1_loop _ _ _ _ _ _ _ _ _) as [[e p1]|] eqn:Lp; cbn [obind] in E; [|discriminate].
    apply s1_loop_frame in Lp. destruct Lp as (o & r12 & Ho & Hr & Hf & ->).
    exists (s_set_rho (Some (s1_rho r)) (s_set_k (Some (s1_k r)) (s_set_ed (Some y) p))), Ks, r11, o, r12.
    split; [right; exists (Some y); auto|].
    split; [rewrite EK; apply upd_length|]. split; [rewrite ER; apply upd_length|]. split; [exact Ho|]. split; [exact Hr|].
    split; [intros j Hj; rewrite ER; apply nth_error_upd_diff; rewrite Nat2Z.id; first [exact (not_eq_sym Hj)|exact Hj]|]. split; [exact Hf|].
    split; [intros j Hj; rewrite EK; apply nth_error_upd_diff; rewrite Nat2Z.id; first [exact (not_eq_sym Hj)|exact Hj]|].
    destruct e; inversion E; reflexivity.
  Qed.
  Lemma r2_frame d p res p' : sg_r2_exec C B d p = Ret (res, p') ->
    exists Ks o r2, length Ks = length (sp_K p) /\ length o = length (sp_out2 p) /\ length r2 = length (sp_r2 p) /\
      (forall j, j <> sp_i p -> nth_error r2 j = nth_error (sp_r2 p) j) /\
      p' = s_set_r2 r2 (s_set_out2 o (s_set_K Ks (s_set_number 2 p))).
  Proof.
    unfold sg_r2_exec. intro E.
    destruct (s2_verify _ _ _ _) as [[e p1]|] eqn:V; cbn [obind] in E; [|discriminate].
    apply s2_verify_frame in V. destruct V as (Ks & HK & ->). cbn in HK.
    destruct e.
    { inversion E; subst. exists Ks, (sp_out2 p), (sp_r2 p). repeat split; auto. }
    destruct (deref (sp_k _)) as [k|]; cbn [obind] in E; [|discriminate].
    destruct (deref (base_mul _ _)) as [Ri|]; cbn [obind] in E; [|discriminate].
    destruct (get_N _ _) as [N|]; cbn [obind] in E; [|discriminate].
    destruct (s2_loop _ _ _ _ _ _ _ _) as [[e p1]|] eqn:Lp; cbn [obind] in E; [|discriminate].
    apply s2_loop_frame in Lp. destruct Lp as (o & r2 & Ho & Hr & Hf & ->).
    exists Ks, o, r2. split; [exact HK|]. split; [exact Ho|]. split; [exact Hr|]. split; [exact Hf|].
    destruct e; inversion E; reflexivity.
  Qed.
  Lemma r3_frame z p res p' : sg_r3_exec C D B S5 z p = Ret (res, p') ->
    exists si r r3, length r3 = length (sp_r3 p) /\ (forall j, j <> sp_i p -> nth_error r3 j = nth_error (sp_r3 p) j) /\
      p' = s_set_r3 r3 (s_set_r r (s_set_si si (s_set_number 3 p))).
  Proof.
    unfold sg_r3_exec. intro E.
    destruct (s3_loop _ _ _ _ _ _ _) as [[e|R]|]; cbn [obind] in E; [| |discriminate].
    { inversion E; subst. exists (sp_si p), (sp_r p), (sp_r3 p). repeat split; auto. }
    destruct (deref (sv_ed _)) as [A|]; cbn [obind] in E; [|discriminate].
    destruct (store _ _ _) as [r3|] eqn:E1; cbn [obind] in E; [|discriminate]. apply store_Ret in E1. destruct E1 as [B1 ER].
    eexists _, _, r3. split; [rewrite ER; apply upd_length|]. split; [|inversion E; reflexivity].
    intros j Hj. rewrite ER. apply nth_error_upd_diff. rewrite Nat2Z.id. first [exact (not_eq_sym Hj)|exact Hj].
  Qed.
  Lemma final_frame p res p' : sg_final C D S5 p = Ret (res, p') -> exists d, p' = s_set_data d (s_set_number 4 p).
  Proof.
    unfold sg_final. intro E.
    destruct (sf_loop _ _ _ _) as [[e|acc]|]; cbn [obind] in E; [| |discriminate].
    { inversion E; subst. exists (sp_data p). reflexivity. }
    destruct (deref acc) as [sum|]; cbn [obind] in E; [|discriminate].
    destruct (deref (sp_r _)) as [r|]; cbn [obind] in E; [|discriminate].
    destruct (deref (sv_ed _)) as [A|]; cbn [obind] in E; [|discriminate].
    destruct (ed_verify _ _ _ _ _ _ _); inversion E; subst; eexists; reflexivity.
  Qed.

  Lemma sop_frame o p res p' N i : sop_run o p = Ret (res, p') -> swf N i p ->
    swf N i p' /\ forall k j, (j < N)%nat -> j <> i -> nth_error (s_slots k p') j =
      match sop_write o k j with Some w => Some w | None => nth_error (s_slots k p) j end.
  Proof.
    intros E W. pose proof (sw_i _ _ _ W) as I.
    assert (S1 := sw_slots _ _ _ W K11). assert (S2 := sw_slots _ _ _ W K12). assert (S3 := sw_slots _ _ _ W K2). assert (S4 := sw_slots _ _ _ W K3).
    cbn [s_slots] in *.
    destruct o as [r|d|z| |to|to|r from msg|r]; cbn [sop_write].
    - cbn [sop_run] in E. apply r1_frame in E. destruct E as (p1 & Ks & r11 & o & r12 & P1 & HK & H1 & Ho & H2 & F1 & F2 & _ & ->).
      rewrite I in *.
      assert (Q : sp_i p1 = sp_i p /\ sp_ids p1 = sp_ids p /\ sp_out2 p1 = sp_out2 p /\ sp_r2 p1 = sp_r2 p /\ sp_r3 p1 = sp_r3 p)
        by (destruct P1 as [->|(ed & [->| ->])]; auto).
      destruct Q as (Q1 & Q2 & Q3 & Q4 & Q5).
      split.
      + constructor; [cbn; congruence|apply W|intros []; cbn; rewrite ?Q4, ?Q5; congruence|cbn; rewrite Q2; apply W|cbn; rewrite HK; apply W|cbn; rewrite Ho; apply W|cbn; rewrite Q3; apply W].
      + intros k j Hj Hji. destruct k; cbn; rewrite ?Q4, ?Q5; auto.
    - cbn [sop_run] in E. apply r2_frame in E. destruct E as (Ks & o & r2 & HK & Ho & H2 & F2 & ->). rewrite I in *. split.
      + constructor; [exact I|apply W|intros []; cbn; congruence|apply W|cbn; rewrite HK; apply W|apply W|cbn; rewrite Ho; apply W].
      + intros k j Hj Hji. destruct k; cbn; auto.
    - cbn [sop_run] in E. apply r3_frame in E. destruct E as (si & r & r3 & H3 & F3 & ->). rewrite I in *. split.
      + constructor; [exact I|apply W|intros []; cbn; congruence|apply W|apply W|apply W|apply W].
      + intros k j Hj Hji. destruct k; cbn; auto.
    - cbn [sop_run] in E. apply final_frame in E. destruct E as (d & ->). split.
      + constructor; [exact I|apply W|intros []; cbn; congruence|apply W|apply W|apply W|apply W].
      + intros k j Hj Hji. destruct k; cbn; auto.
    - cbn [sop_run] in E. unfold sg_get1 in E. destruct (idx _ _); cbn [obind] in E; [|discriminate]. inversion E; subst. split; auto.
    - cbn [sop_run] in E. unfold sg_get2 in E. destruct (idx _ _); cbn [obind] in E; [|discriminate]. inversion E; subst. split; auto.
    - rewrite accept_eq in E. destruct (acc_effect r msg) as [[k' w]|].
      2:{ inversion E; subst. split; auto. }
      destruct (store _ _ _) as [l|] eqn:E1; cbn [obind] in E; [|discriminate]. apply store_Ret in E1. destruct E1 as [B1 ->].
      rewrite (sw_slots _ _ _ W) in B1.
      inversion E; subst p'. split.
      + constructor; try (destruct k'; cbn; apply W). intro k. rewrite s_slots_set. destruct (skind_eqb k' k); [rewrite upd_length|]; apply W.
      + intros k j Hj Hji. rewrite s_slots_set. destruct (skind_eqb_spec k' k) as [->|]; cbn [andb]; [|reflexivity].
        destruct (Z.eqb_spec from (Z.of_nat j)) as [->|Ef].
        * rewrite Nat2Z.id. apply nth_error_upd_same. rewrite (sw_slots _ _ _ W). exact Hj.
        * apply nth_error_upd_diff. lia.
    - assert (P : p' = p).
      { destruct r as [|[|[|r]]]; cbn [sop_run] in E; unfold sg_finish1, sg_finish2, sg_finish3 in E;
          try (destruct (s1_missing _ _ _); cbn [obind] in E; [|discriminate]); inversion E; reflexivity. }
      subst. split; auto.
  Qed.

  Lemma s_hist_inv N i p0 l p : swf N i p0 -> s_hist p0 l p ->
    (forall k j, (j < N)%nat -> nth_error (s_slots k p0) j = Some []) ->
    swf N i p /\ forall k j, (j < N)%nat -> j <> i ->
      nth_error (s_slots k p) j = Some (match s_last k j l with Some w => w | None => [] end).
  Proof.
    intros W0 Hh. induction Hh as [p|p l p1 o res p2 Hh IH Run]; intros Z0.
    - split; [exact W0|]. intros k j Hj Hji. cbn. apply Z0; auto.
    - destruct IH as [W1 S1]; auto. destruct (sop_frame o p1 res p2 N i Run W1) as [W2 S2].
      split; [exact W2|]. intros k j Hj Hji. rewrite S2, s_last_app by auto.
      destruct (sop_write o k j); [reflexivity|]. apply S1; auto.
  Qed.
End Ops.
