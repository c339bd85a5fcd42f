(** SignWorld.v -- N parties signing over an asynchronous network (small specification), and the invariant of honest runs. *)
From Verif Require Import Base BigInt HashFrame Text Wire Messages PartyID Curve Json Save Keygen KeygenNet KeygenHonest KeygenWorld NumTh Paillier RangeProofs RangeThm PropRange Ckd Subset Onsign OnsignEnc OnsignHist PropSign SignHonest SignExec.

(** ** The network: what callers do.  Every party makes its round calls in the documented order (a round after the
    previous round's Finish returned Ok); messages are fetched and delivered in any order, any number of times, at any
    time after they exist. *)
Record sworld := { v_p : nat -> sparty; v_out : nat -> nat -> option bytes; v_net : skind -> nat -> nat -> option bytes }.
Inductive sevent :=
| NExec (r i : nat)                     (* party i calls OnSignRound{r}Exec; r = 4: OnSignFinalExec *)
| NFetch (k : skind) (i j : nat)        (* party i calls GetOnSignRound1Msg(j) (k = K12) or GetOnSignRound2Msg(j) (k = K2) *)
| NDeliver (k : skind) (j i : nat).     (* party i calls OnSignRound{.}MsgAccept(from = j, base64 of j's message for i) *)
(** the round a kind of message belongs to *)
Definition kr (k : skind) : nat := match k with K11 | K12 => 1 | K2 => 2 | K3 => 3 end.

Section Net.
  Variables (C : curve) (D : edlib) (B S5 : bytes -> bytes).
  Variable N : nat.
  Variables (rnd : nat -> s1_rand) (d2 : nat -> nat -> pdraws) (zz : nat -> nat -> Z).
  Notation call := (sop_run C D B S5).
  Definition s_round (r i : nat) : sop := match r with 1%nat => SR1 (rnd i) | 2%nat => SR2 (d2 i) | 3%nat => SR3 (zz i) | _ => SFinal end.
  Definition v_enabled (e : sevent) (w : sworld) : Prop :=
    match e with
    | NExec r i => (i < N)%nat /\ (1 <= r <= 4)%nat /\ v_out w r i = None /\
        (r = 1%nat \/ exists m res, v_out w (r - 1) i = Some m /\ call (SFin (r - 1)) (v_p w i) = Ret (res, v_p w i) /\ r_ok res = true)
    | NFetch k i j => (i < N)%nat /\ (j < N)%nat /\ (k = K12 \/ k = K2) /\ v_out w (kr k) i <> None
    | NDeliver k j i => (i < N)%nat /\ (j < N)%nat /\ v_net w k j i <> None
    end.
  Definition kupd (f : skind -> nat -> nat -> option bytes) k v : skind -> nat -> nat -> option bytes := fun k' => if skind_eqb k k' then v else f k'.
  Definition v_run (e : sevent) (w : sworld) : outcome (res * sworld) :=
    match e with
    | NExec r i => let! (res, p) := call (s_round r i) (v_p w i) in
        Ret (res, {| v_p := fupd (v_p w) i p; v_out := fupd (v_out w) r (fupd (v_out w r) i (Some (r_data res)));
                     (* the returned bytes of rounds 1 and 3 are broadcast *)
                     v_net := match r with
                              | 1%nat => kupd (v_net w) K11 (fupd (v_net w K11) i (fun _ => Some (r_data res)))
                              | 3%nat => kupd (v_net w) K3 (fupd (v_net w K3) i (fun _ => Some (r_data res)))
                              | _ => v_net w end |})
    | NFetch k i j => let! (res, p) := call (match k with K12 => SGet1 (Z.of_nat j) | _ => SGet2 (Z.of_nat j) end) (v_p w i) in
        Ret (res, {| v_p := fupd (v_p w) i p; v_out := v_out w; v_net := kupd (v_net w) k (fupd (v_net w k) i (fupd (v_net w k i) j (Some (r_data res)))) |})
    | NDeliver k j i =>
        match v_net w k j i with
        | None => Panic
        | Some m => let! (res, p) := call (SAcc (kr k) (Z.of_nat j) (b64_enc m)) (v_p w i) in
                    Ret (res, {| v_p := fupd (v_p w) i p; v_out := v_out w; v_net := v_net w |})
        end
    end.
  Inductive v_steps : sworld -> sworld -> Prop :=
  | vs_refl w : v_steps w w
  | vs_cons w e res w' w'' : v_enabled e w -> v_run e w = Ret (res, w') -> v_steps w' w'' -> v_steps w w''.
  Lemma v_steps_trans w1 w2 w3 : v_steps w1 w2 -> v_steps w2 w3 -> v_steps w1 w3.
  Proof. induction 1; auto. intro S. econstructor; eauto. Qed.
End Net.

Lemma kupd_same f k v : kupd f k v k = v.
Proof. unfold kupd. destruct (skind_eqb_spec k k); [reflexivity|congruence]. Qed.
Lemma kupd_diff f k v k' : k <> k' -> kupd f k v k' = f k'.
Proof. unfold kupd. destruct (skind_eqb_spec k k'); [congruence|reflexivity]. Qed.
Lemma s_up_same s k v : s_up s k v k = v.
Proof. unfold s_up. destruct (skind_eqb_spec k k); [reflexivity|congruence]. Qed.
Lemma s_up_diff s k v k' : k <> k' -> s_up s k v k' = s k'.
Proof. unfold s_up. destruct (skind_eqb_spec k k'); [congruence|reflexivity]. Qed.
Lemma skind_dec (a b : skind) : {a = b} + {a <> b}. Proof. decide equality. Qed.

Definition s_togo (N : nat) (pc : nat -> nat) : nat := fold_right Nat.add 0%nat (map (fun i => (4 - pc i)%nat) (seq 0 N)).
Lemma s_sum_fupd (f : nat -> nat) i v l : NoDup l -> In i l ->
  (fold_right Nat.add 0 (map (fupd f i v) l) + f i = fold_right Nat.add 0 (map f l) + v)%nat.
Proof.
  induction 1 as [|a l Ha Hl IH]; [intros []|]. intros [->|Hin]; cbn [map fold_right].
  - rewrite fupd_same. assert (E : map (fupd f i v) l = map f l).
    { apply map_ext_in. intros b Hb. apply fupd_diff. intros ->. contradiction. }
    rewrite E. lia.
  - specialize (IH Hin). rewrite (fupd_diff f i v a) by (intros ->; contradiction). lia.
Qed.
Lemma s_togo_dec N pc i : (i < N)%nat -> (pc i < 4)%nat -> (s_togo N (fupd pc i (S (pc i))) < s_togo N pc)%nat.
Proof.
  intros Hi H4. unfold s_togo.
  rewrite (map_ext_in _ (fupd (fun i => (4 - pc i)%nat) i (3 - pc i)%nat)).
  - pose proof (s_sum_fupd (fun i => (4 - pc i)%nat) i (3 - pc i)%nat (seq 0 N) (seq_NoDup _ _) ltac:(apply in_seq; lia)) as S. cbn beta in S. lia.
  - intros a _. unfold fupd. destruct (a =? i)%nat; lia.
Qed.
Lemma s_min_exists (pc : nat -> nat) k : (0 < k)%nat -> exists i, (i < k)%nat /\ forall j, (j < k)%nat -> (pc i <= pc j)%nat.
Proof.
  induction k as [|k IH]; [lia|]. intros _. destruct k as [|k].
  - exists 0%nat. split; [lia|]. intros j Hj. replace j with 0%nat by lia. lia.
  - destruct IH as (i & Hi & Hm); [lia|]. destruct (Nat.le_gt_cases (pc i) (pc (S k))).
    + exists i. split; [lia|]. intros j Hj. destruct (Nat.eq_dec j (S k)) as [->|]; [lia|apply Hm; lia].
    + exists (S k). split; [lia|]. intros j Hj. destruct (Nat.eq_dec j (S k)) as [->|]; [lia|]. specialize (Hm j ltac:(lia)). lia.
Qed.


Section World.
  Variables (C : curve) (D : edlib) (B S5 : bytes -> bytes).
  Hypothesis L : curve_laws C.
  Hypothesis LD : ed_laws C D.
  Variable N : nat.
  Variable ids : list party_id.
  Hypothesis Hids : length ids = N.
  Variables (y NN : nat -> Z) (pdv : nat -> ped) (m : Z) (sv0 : nat -> save).
  Variables (rnd : nat -> s1_rand) (d2 : nat -> nat -> pdraws) (zz : nat -> nat -> Z).
  Hypothesis HS : forall i, (i < N)%nat -> signer_data C N y NN pdv i (sv0 i).
  Hypothesis HP : forall i, (i < N)%nat -> params_ok C y NN pdv i.
  Hypothesis HR : forall i, (i < N)%nat -> rand_ok C D B N NN pdv rnd d2 zz i.
  Notation hmsg := (hmsg C D B S5 N y NN pdv m rnd d2).
  Notation sst := (sst C D B S5 N ids y NN pdv m sv0 rnd d2).
  Notation hdata := (hdata C D S5 N y m rnd).
  Notation call := (sop_run C D B S5).
  Notation enabled := (v_enabled C D B S5 N).
  Notation run := (v_run C D B S5 rnd d2 zz).
  Notation sfilled := (sfilled C D B S5 N y NN pdv m rnd d2).

  (** what the round call returns *)
  Definition hout (r i : nat) : bytes :=
    match r with 1%nat => hmsg K11 i i | 2%nat => [] | 3%nat => hmsg K3 i i | _ => sig_json hdata end.
  Definition own_up (s : skind -> list bytes) (r i : nat) : skind -> list bytes :=
    fun k => if (kr k =? r)%nat then upd i (hmsg k i i) (s k) else s k.

  Record sinv (w : sworld) (pc : nat -> nat) (s : nat -> skind -> list bytes) : Prop := {
    si_pc : forall i, (i < N)%nat -> (pc i <= 4)%nat;
    si_st : forall i, (i < N)%nat -> v_p w i = sst (pc i) i (s i);
    si_len : forall k i, (i < N)%nat -> length (s i k) = N;
    si_slot : forall k i j, (i < N)%nat -> (j < N)%nat -> nth_error (s i k) j = Some [] \/ nth_error (s i k) j = Some (hmsg k j i);
    si_own : forall k i, (i < N)%nat -> (kr k <= pc i)%nat -> nth_error (s i k) i = Some (hmsg k i i);
    si_full : forall k i j, (i < N)%nat -> (j < N)%nat -> (kr k < pc i)%nat -> nth_error (s i k) j = Some (hmsg k j i);
    si_out : forall r i, (i < N)%nat -> (1 <= r <= 4)%nat -> v_out w r i = if (r <=? pc i)%nat then Some (hout r i) else None;
    si_net : forall k i j v, (i < N)%nat -> (j < N)%nat -> v_net w k i j = Some v -> v = hmsg k i j /\ (kr k <= pc i)%nat;
    si_bc : forall k i j, (i < N)%nat -> (j < N)%nat -> (k = K11 \/ k = K3) -> (kr k <= pc i)%nat -> v_net w k i j <> None }.

  Lemma exec_ok i s r : (i < N)%nat -> (1 <= r <= 4)%nat -> (forall k, length (s k) = N) ->
    (forall k, (kr k < r)%nat -> sfilled k i (s k)) ->
    call (s_round rnd d2 zz r i) (sst (r - 1) i s) = Ret (if (r =? 2)%nat then ok0 else okd (hout r i), sst r i (own_up s r i)).
  Proof.
    intros Hi Hr HL HF. destruct r as [|[|[|[|[|r]]]]]; try lia; cbn [s_round sop_run Nat.sub Nat.eqb].
    - exact (exec1 C D B S5 L N ids Hids y NN pdv m sv0 rnd d2 zz HS HP HR i s Hi (HL K11) (HL K12)).
    - exact (exec2 C D B S5 L N ids Hids y NN pdv m sv0 rnd d2 zz HS HP HR i s Hi (HF K11 ltac:(cbn; lia)) (HF K12 ltac:(cbn; lia)) (HL K2)).
    - exact (exec3 C D B S5 L N ids Hids y NN pdv m sv0 rnd d2 zz HS HP HR i s Hi (HF K2 ltac:(cbn; lia)) (HL K3)).
    - exact (exec4 C D B S5 L LD N ids Hids y NN pdv m sv0 rnd d2 zz HS HP HR i s Hi (HF K3 ltac:(cbn; lia))).
  Qed.

  Definition net_after (w : sworld) (r i : nat) (v : bytes) : skind -> nat -> nat -> option bytes :=
    match r with
    | 1%nat => kupd (v_net w) K11 (fupd (v_net w K11) i (fun _ => Some v))
    | 3%nat => kupd (v_net w) K3 (fupd (v_net w K3) i (fun _ => Some v))
    | _ => v_net w end.
  Lemma net_after_cases w r i v k j q : net_after w r i v k j q = v_net w k j q \/ (net_after w r i v k j q = Some v /\ kr k = r /\ j = i /\ (k = K11 \/ k = K3)).
  Proof.
    unfold net_after. destruct r as [|[|[|[|r]]]]; auto.
    - destruct (skind_dec K11 k) as [<-|E]; [|rewrite kupd_diff by auto; auto]. rewrite kupd_same.
      destruct (Nat.eq_dec j i) as [->|E]; [rewrite fupd_same; right; repeat split; auto|rewrite fupd_diff by auto; auto].
    - destruct (skind_dec K3 k) as [<-|E]; [|rewrite kupd_diff by auto; auto]. rewrite kupd_same.
      destruct (Nat.eq_dec j i) as [->|E]; [rewrite fupd_same; right; repeat split; auto|rewrite fupd_diff by auto; auto].
  Qed.
  Lemma net_after_some w r i v k j q : v_net w k j q <> None -> net_after w r i v k j q <> None.
  Proof. intros H. destruct (net_after_cases w r i v k j q) as [->|(-> & _)]; [exact H|discriminate]. Qed.

  Lemma inv_exec w pc s r i : sinv w pc s -> (i < N)%nat -> (1 <= r <= 4)%nat -> r = S (pc i) ->
    (forall k, (kr k < r)%nat -> sfilled k i (s i k)) ->
    sinv {| v_p := fupd (v_p w) i (sst r i (own_up (s i) r i));
            v_out := fupd (v_out w) r (fupd (v_out w r) i (Some (hout r i)));
            v_net := net_after w r i (hout r i) |} (fupd pc i r) (fupd s i (own_up (s i) r i)).
  Proof.
    intros I Hi Hr Epc HF.
    assert (PC : forall j, (pc j <= fupd pc i r j)%nat).
    { intro j. destruct (Nat.eq_dec j i) as [->|E]; [rewrite fupd_same; lia|rewrite fupd_diff by auto; lia]. }
    assert (LI : forall k, length (own_up (s i) r i k) = N).
    { intro k. unfold own_up. destruct (kr k =? r)%nat; rewrite ?upd_length; apply (si_len _ _ _ I); exact Hi. }
    constructor; cbn [v_p v_out v_net].
    - intros k Hk. destruct (Nat.eq_dec k i) as [->|E]; [rewrite fupd_same; lia|rewrite fupd_diff by auto; apply (si_pc _ _ _ I); auto].
    - intros k Hk. destruct (Nat.eq_dec k i) as [->|E]; [rewrite !fupd_same; reflexivity|rewrite !fupd_diff by auto; apply (si_st _ _ _ I); auto].
    - intros k q Hq. destruct (Nat.eq_dec q i) as [->|E]; [rewrite fupd_same; apply LI|rewrite fupd_diff by auto; apply (si_len _ _ _ I); auto].
    - intros k q j Hq Hj. destruct (Nat.eq_dec q i) as [->|E]; [rewrite fupd_same|rewrite fupd_diff by auto; apply (si_slot _ _ _ I); auto].
      unfold own_up. destruct (kr k =? r)%nat; [|apply (si_slot _ _ _ I); auto]. destruct (Nat.eq_dec i j) as [<-|E].
      + right. apply nth_error_upd_same. rewrite (si_len _ _ _ I); auto.
      + rewrite nth_error_upd_diff by auto. apply (si_slot _ _ _ I); auto.
    - intros k q Hq Hp. destruct (Nat.eq_dec q i) as [->|E].
      + rewrite fupd_same in Hp. rewrite fupd_same. unfold own_up. destruct (Nat.eqb_spec (kr k) r).
        * apply nth_error_upd_same. rewrite (si_len _ _ _ I); auto.
        * apply (si_own _ _ _ I); auto. lia.
      + rewrite fupd_diff in Hp by auto. rewrite fupd_diff by auto. apply (si_own _ _ _ I); auto.
    - intros k q j Hq Hj Hp. destruct (Nat.eq_dec q i) as [->|E].
      + rewrite fupd_same in Hp. rewrite fupd_same. unfold own_up. destruct (Nat.eqb_spec (kr k) r); [lia|]. apply HF; auto.
      + rewrite fupd_diff in Hp by auto. rewrite fupd_diff by auto. apply (si_full _ _ _ I); auto.
    - intros r' k Hk Hr'. destruct (Nat.eq_dec r' r) as [->|Er].
      + rewrite fupd_same. destruct (Nat.eq_dec k i) as [->|Ek]; [rewrite !fupd_same, Nat.leb_refl; reflexivity|].
        rewrite !fupd_diff by auto. apply (si_out _ _ _ I); auto.
      + rewrite (fupd_diff (v_out w)) by auto. rewrite (si_out _ _ _ I) by auto.
        destruct (Nat.eq_dec k i) as [->|Ek]; [rewrite fupd_same|rewrite fupd_diff by auto; reflexivity].
        destruct (Nat.leb_spec r' (pc i)), (Nat.leb_spec r' r); auto; lia.
    - intros k q j v Hq Hj Hv. destruct (net_after_cases w r i (hout r i) k q j) as [E|(E & Ek & -> & Ekk)]; rewrite E in Hv.
      + destruct (si_net _ _ _ I k q j v Hq Hj Hv) as [-> P]. split; [reflexivity|]. pose proof (PC q). lia.
      + assert (Ev : v = hout r i) by congruence. subst v. rewrite fupd_same. split; [|lia]. destruct Ekk as [->| ->]; cbn [kr] in Ek; rewrite <- Ek; reflexivity.
    - intros k q j Hq Hj Hk Hp. destruct (Nat.eq_dec q i) as [->|E].
      + rewrite fupd_same in Hp. destruct (Nat.eq_dec (kr k) r) as [Er|Er].
        * destruct Hk as [->| ->]; cbn [kr] in Er; rewrite <- Er; cbn [net_after]; rewrite kupd_same, fupd_same; discriminate.
        * apply net_after_some. apply (si_bc _ _ _ I); auto. lia.
      + rewrite fupd_diff in Hp by auto. apply net_after_some. apply (si_bc _ _ _ I); auto.
  Qed.

  Lemma exec_step w pc s r i : sinv w pc s -> (i < N)%nat -> (1 <= r <= 4)%nat -> r = S (pc i) ->
    (forall k, (kr k < r)%nat -> sfilled k i (s i k)) ->
    exists res w' s', run (NExec r i) w = Ret (res, w') /\ sinv w' (fupd pc i r) s' /\ r_ok res = true.
  Proof.
    intros I Hi Hr Epc HF. pose proof (inv_exec w pc s r i I Hi Hr Epc HF) as I'.
    cbn [v_run]. rewrite (si_st _ _ _ I i Hi). replace (pc i) with (r - 1)%nat by lia.
    rewrite exec_ok; auto; [|intro k; apply (si_len _ _ _ I); exact Hi]. cbn [obind].
    do 3 eexists. split; [reflexivity|]. split; [|destruct (r =? 2)%nat; reflexivity].
    assert (Er : r_data (if (r =? 2)%nat then ok0 else okd (hout r i)) = hout r i) by (destruct r as [|[|[|[|[|r]]]]]; try lia; reflexivity).
    rewrite Er. exact I'.
  Qed.

  Lemma hmsg_acc k j i : (i < N)%nat -> (j < N)%nat -> acc_effect (kr k) (b64_enc (hmsg k j i)) = Some (k, hmsg k j i) /\ acc_err (kr k) (b64_enc (hmsg k j i)) = None.
  Proof.
    intros Hi Hj. unfold acc_effect, acc_err. rewrite b64_roundtrip. destruct k; cbn [kr].
    - rewrite (parse_k11 C D B S5 N ids Hids y NN pdv m sv0 rnd d2 zz HS HP HR j i Hj). auto.
    - rewrite (parse_k12 C D B S5 L N ids Hids y NN pdv m sv0 rnd d2 zz HS HP HR j i Hj Hi). auto.
    - rewrite (parse_k2 C D B S5 L N ids Hids y NN pdv m sv0 rnd d2 zz HS HP HR j i Hj Hi). auto.
    - rewrite (parse_k3 C D B S5 L N ids Hids y NN pdv m sv0 rnd d2 zz HS HP HR). auto.
  Qed.
  Lemma set_slots_sst k v c i s : s_set_slots k v (sst c i s) = sst c i (s_up s k v).
  Proof. destruct k; reflexivity. Qed.
  Lemma slots_sst k c i s : s_slots k (sst c i s) = s k.
  Proof. destruct k; reflexivity. Qed.

  Lemma deliver_step w pc s k j i : sinv w pc s -> (i < N)%nat -> (j < N)%nat -> v_net w k j i <> None ->
    exists res w', run (NDeliver k j i) w = Ret (res, w') /\ sinv w' pc (fupd s i (s_up (s i) k (upd j (hmsg k j i) (s i k)))) /\ r_ok res = true /\ v_net w' = v_net w /\ v_out w' = v_out w.
  Proof.
    intros I Hi Hj Hn. cbn [v_run]. destruct (v_net w k j i) as [v|] eqn:Ev; [|congruence].
    destruct (si_net _ _ _ I k j i v Hj Hi Ev) as [-> Hp]. rewrite (si_st _ _ _ I i Hi), accept_eq.
    destruct (hmsg_acc k j i Hi Hj) as [-> ->]. rewrite slots_sst. rewrite store_nat by (rewrite (si_len _ _ _ I); auto). cbn [obind]. rewrite set_slots_sst.
    do 2 eexists. split; [reflexivity|]. split; [|auto]. set (v := upd j (hmsg k j i) (s i k)).
    assert (LV : length v = N) by (unfold v; rewrite upd_length; apply (si_len _ _ _ I); auto).
    (* reading any slot of the new arrays *)
    assert (RD : forall k' q x, (q < N)%nat -> (x < N)%nat -> nth_error (fupd s i (s_up (s i) k v) q k') x = nth_error (s q k') x \/
      nth_error (fupd s i (s_up (s i) k v) q k') x = Some (hmsg k' x q)).
    { intros k' q x Hq Hx. destruct (Nat.eq_dec q i) as [->|E]; [rewrite fupd_same|rewrite fupd_diff by auto; auto].
      destruct (skind_dec k k') as [<-|E]; [rewrite s_up_same|rewrite s_up_diff by auto; auto]. unfold v.
      destruct (Nat.eq_dec j x) as [<-|E]; [right; apply nth_error_upd_same; rewrite (si_len _ _ _ I); auto|rewrite nth_error_upd_diff by auto; auto]. }
    constructor; cbn [v_p v_out v_net].
    - apply (si_pc _ _ _ I).
    - intros q Hq. destruct (Nat.eq_dec q i) as [->|E]; [rewrite !fupd_same; reflexivity|rewrite !fupd_diff by auto; apply (si_st _ _ _ I); auto].
    - intros k' q Hq. destruct (Nat.eq_dec q i) as [->|E]; [rewrite fupd_same|rewrite fupd_diff by auto; apply (si_len _ _ _ I); auto].
      destruct (skind_dec k k') as [<-|E]; [rewrite s_up_same; exact LV|rewrite s_up_diff by auto; apply (si_len _ _ _ I); auto].
    - intros k' q x Hq Hx. destruct (RD k' q x Hq Hx) as [->| ->]; [apply (si_slot _ _ _ I); auto|auto].
    - intros k' q Hq Hp'. destruct (RD k' q q Hq Hq) as [->| ->]; [apply (si_own _ _ _ I); auto|auto].
    - intros k' q x Hq Hx Hp'. destruct (RD k' q x Hq Hx) as [->| ->]; [apply (si_full _ _ _ I); auto|auto].
    - apply (si_out _ _ _ I).
    - apply (si_net _ _ _ I).
    - apply (si_bc _ _ _ I).
  Qed.

  Lemma fetch_step w pc s k i j : sinv w pc s -> (i < N)%nat -> (j < N)%nat -> (k = K12 \/ k = K2) -> (kr k <= pc i)%nat ->
    exists res w', run (NFetch k i j) w = Ret (res, w') /\ sinv w' pc s /\ r_ok res = true /\ v_net w' k i j <> None /\
      (forall k' a b, v_net w k' a b <> None -> v_net w' k' a b <> None) /\ v_out w' = v_out w.
  Proof.
    intros I Hi Hj Hk Hp. cbn [v_run]. rewrite (si_st _ _ _ I i Hi).
    assert (E : call (match k with K12 => SGet1 (Z.of_nat j) | _ => SGet2 (Z.of_nat j) end) (sst (pc i) i (s i)) = Ret (okd (hmsg k i j), sst (pc i) i (s i))).
    { destruct Hk as [->| ->]; cbn [kr] in Hp; cbn [sop_run].
      - unfold sg_get1. cbn [SignHonest.sst sp_out12]. destruct (Nat.leb_spec 1 (pc i)); [|lia]. rewrite idx_nat, nth_error_map_seq by exact Hj. reflexivity.
      - unfold sg_get2. cbn [SignHonest.sst sp_out2]. destruct (Nat.leb_spec 2 (pc i)); [|lia]. rewrite idx_nat, nth_error_map_seq by exact Hj. reflexivity. }
    rewrite E. cbn [obind]. do 2 eexists. split; [reflexivity|]. cbn [r_data okd v_net v_out].
    set (nt := kupd (v_net w) k (fupd (v_net w k) i (fupd (v_net w k i) j (Some (hmsg k i j))))).
    assert (NC : forall k' a b, nt k' a b = v_net w k' a b \/ (nt k' a b = Some (hmsg k i j) /\ k' = k /\ a = i /\ b = j)).
    { intros k' a b. unfold nt. destruct (skind_dec k k') as [<-|]; [rewrite kupd_same|rewrite kupd_diff by auto; auto].
      destruct (Nat.eq_dec a i) as [->|]; [rewrite fupd_same|rewrite fupd_diff by auto; auto].
      destruct (Nat.eq_dec b j) as [->|]; [rewrite fupd_same; auto|rewrite fupd_diff by auto; auto]. }
    split; [|split; [reflexivity|split; [|split]]].
    - constructor; cbn [v_p v_out v_net]; try apply I.
      + intros q Hq. destruct (Nat.eq_dec q i) as [->|Eq]; [rewrite fupd_same; reflexivity|rewrite fupd_diff by auto; apply I; auto].
      + intros k' a b v Ha Hb Hv. fold nt in Hv. destruct (NC k' a b) as [E1|(E1 & -> & -> & ->)]; rewrite E1 in Hv.
        * apply (si_net _ _ _ I k' a b v Ha Hb Hv).
        * split; [congruence|exact Hp].
      + intros k' a b Ha Hb Hk' Hp'. fold nt. destruct (NC k' a b) as [->|(-> & _)]; [apply (si_bc _ _ _ I); auto|discriminate].
    - destruct (NC k i j) as [E1|(E1 & _)]; [|rewrite E1; discriminate]. unfold nt. rewrite kupd_same, fupd_same, fupd_same. discriminate.
    - intros k' a b Hn. destruct (NC k' a b) as [->|(-> & _)]; [exact Hn|discriminate].
    - reflexivity.
  Qed.

  Lemma sst_swf c i s : (i < N)%nat -> (forall k, length (s k) = N) -> swf N i (sst c i s).
  Proof.
    intros Hi HL. constructor; cbn [SignHonest.sst sp_i sp_ids sp_K sp_out12 sp_out2]; auto.
    - intro k. rewrite slots_sst. apply HL.
    - destruct (2 <=? c)%nat; [rewrite map_length, seq_length; reflexivity|]. destruct (1 <=? c)%nat; rewrite ?upd_length, repeat_length; reflexivity.
    - destruct (1 <=? c)%nat; [rewrite map_length, seq_length|rewrite repeat_length]; reflexivity.
    - destruct (2 <=? c)%nat; [rewrite map_length, seq_length|rewrite repeat_length]; reflexivity.
  Qed.
  Lemma kr_kinds r k : (1 <= r <= 3)%nat -> kr k = r <-> In k (round_kinds r).
  Proof. intro Hr. destruct r as [|[|[|[|r]]]], k; try lia; cbn; split; intro H; try lia; try tauto; repeat (destruct H as [H|H]; try discriminate); try contradiction. Qed.
  (** Finish of round r is Ok exactly when the arrays of the round are full *)
  Lemma finish_full w pc s r i : sinv w pc s -> (i < N)%nat -> (1 <= r <= 3)%nat ->
    exists res, call (SFin r) (v_p w i) = Ret (res, v_p w i) /\ (r_ok res = true <-> forall k, kr k = r -> sfilled k i (s i k)).
  Proof.
    intros I Hi Hr. rewrite (si_st _ _ _ I i Hi).
    destruct (finish_iff C D B S5 N i (sst (pc i) i (s i)) r (sst_swf _ _ _ Hi (fun k => si_len _ _ _ I k i Hi))) as (res & E & Iff).
    exists res. split; [exact E|]. rewrite Iff. split.
    - intros F k Hk. split; [apply (si_len _ _ _ I); auto|]. intros j Hj. destruct (F k j (proj1 (kr_kinds r k Hr) Hk) Hj) as (v & Ev & Nv). rewrite slots_sst in Ev.
      destruct (si_slot _ _ _ I k i j Hi Hj) as [Q|Q]; [congruence|exact Q].
    - intros F k j Hk Hj. apply (kr_kinds r k Hr) in Hk. destruct (F k Hk) as [_ F']. exists (hmsg k j i). rewrite slots_sst. split; [apply F'; exact Hj|apply hmsg_nonempty].
  Qed.

  Lemma enabled_exec w pc s r i : sinv w pc s -> enabled (NExec r i) w ->
    (i < N)%nat /\ (1 <= r <= 4)%nat /\ r = S (pc i) /\ (forall k, (kr k < r)%nat -> sfilled k i (s i k)).
  Proof.
    intros I (Hi & Hr & Hn & Hprev). pose proof (si_pc _ _ _ I i Hi) as P4.
    assert (PCr : r = S (pc i)).
    { rewrite (si_out _ _ _ I) in Hn by auto. destruct (Nat.leb_spec r (pc i)); [discriminate|].
      destruct Hprev as [->|(v & res & Ho & _)]; [lia|]. destruct (Nat.eq_dec r 1) as [->|E1]; [lia|].
      rewrite (si_out _ _ _ I) in Ho by (auto; lia). destruct (Nat.leb_spec (r - 1) (pc i)); [lia|discriminate]. }
    split; [exact Hi|]. split; [exact Hr|]. split; [exact PCr|].
    intros k Hk. destruct (Nat.eq_dec (kr k) (r - 1)) as [Ek|Ek].
    - destruct Hprev as [->|(v & res & Ho & F & Ok)]; [destruct k; cbn in Hk; lia|].
      assert (H1 : (1 <= r - 1 <= 3)%nat) by (destruct k; cbn in Hk; lia).
      destruct (finish_full w pc s (r - 1) i I Hi H1) as (res' & F' & Iff). rewrite F in F'. apply Ret_pair_inj in F'. destruct F' as [<- _]. apply Iff; auto.
    - split; [apply (si_len _ _ _ I); auto|]. intros j Hj. apply (si_full _ _ _ I); auto. lia.
  Qed.

  Lemma inv_step w pc s e : sinv w pc s -> enabled e w ->
    exists res w' pc' s', run e w = Ret (res, w') /\ sinv w' pc' s' /\ r_ok res = true.
  Proof.
    intros I En. destruct e as [r i|k i j|k j i].
    - destruct (enabled_exec w pc s r i I En) as (Hi & Hr & PCr & HF). destruct (exec_step w pc s r i I Hi Hr PCr HF) as (res & w' & s' & E & I' & Ok). eauto 10.
    - destruct En as (Hi & Hj & Hk & Ho). assert (Hp : (kr k <= pc i)%nat).
      { rewrite (si_out _ _ _ I) in Ho by (auto; destruct Hk as [->| ->]; cbn; lia). destruct (Nat.leb_spec (kr k) (pc i)); [assumption|congruence]. }
      destruct (fetch_step w pc s k i j I Hi Hj Hk Hp) as (res & w' & E & I' & Ok & _). eauto 10.
    - destruct En as (Hi & Hj & Hn). destruct (deliver_step w pc s k j i I Hi Hj Hn) as (res & w' & E & I' & Ok & _). eauto 10.
  Qed.

  (** ** Progress *)
  Notation steps := (v_steps C D B S5 N rnd d2 zz).
  (** one message of kind k from j to i, fetched if needed and delivered *)
  Lemma send w pc s k j i : sinv w pc s -> (i < N)%nat -> (j < N)%nat -> (kr k <= pc j)%nat ->
    exists w', steps w w' /\ sinv w' pc (fupd s i (s_up (s i) k (upd j (hmsg k j i) (s i k)))).
  Proof.
    intros I Hi Hj Hp.
    assert (G : exists w1, steps w w1 /\ sinv w1 pc s /\ v_net w1 k j i <> None).
    { assert (X : (k = K11 \/ k = K3) \/ (k = K12 \/ k = K2)) by (destruct k; auto). destruct X as [X|X].
      - exists w. split; [constructor|]. split; [exact I|]. apply (si_bc _ _ _ I); auto.
      - destruct (fetch_step w pc s k j i I Hj Hi X Hp) as (res & w' & E & I' & _ & Nn & _). exists w'. split; [|auto].
        econstructor; [|exact E|constructor]. split; [exact Hj|]. split; [exact Hi|]. split; [exact X|].
        rewrite (si_out _ _ _ I) by (auto; destruct X as [->| ->]; cbn; lia). destruct (Nat.leb_spec (kr k) (pc j)); [discriminate|lia]. }
    destruct G as (w1 & S1 & I1 & N1). destruct (deliver_step w1 pc s k j i I1 Hi Hj N1) as (res & w2 & E & I2 & _).
    exists w2. split; [|exact I2]. eapply v_steps_trans; [exact S1|]. econstructor; [|exact E|constructor]. split; [exact Hi|]. split; [exact Hj|exact N1].
  Qed.
  Lemma send_all w pc s k i c : sinv w pc s -> (i < N)%nat -> (forall j, (j < N)%nat -> (kr k <= pc j)%nat) -> (c <= N)%nat ->
    exists w' s', steps w w' /\ sinv w' pc s' /\ (forall j, (j < c)%nat -> nth_error (s' i k) j = Some (hmsg k j i)) /\
      (forall k', k' <> k -> s' i k' = s i k').
  Proof.
    intros I Hi Hall. induction c as [|c IH]; intro Hc.
    - exists w, s. split; [constructor|]. split; [exact I|]. split; [intros; lia|auto].
    - destruct IH as (w1 & s1 & S1 & I1 & F1 & K1); [lia|].
      destruct (send w1 pc s1 k c i I1 Hi ltac:(lia) ltac:(apply Hall; lia)) as (w2 & S2 & I2).
      eexists w2, _. split; [eapply v_steps_trans; eassumption|]. split; [exact I2|]. rewrite fupd_same. split.
      + intros j Hj. rewrite s_up_same. destruct (Nat.eq_dec c j) as [<-|E]; [apply nth_error_upd_same; rewrite (si_len _ _ _ I1); auto|].
        rewrite nth_error_upd_diff by auto. apply F1. lia.
      + intros k' Hk'. rewrite s_up_diff by auto. apply K1; auto.
  Qed.
  (** a party that is not ahead of anyone can take its next step *)
  Lemma advance_min w pc s i : sinv w pc s -> (i < N)%nat -> (pc i < 4)%nat -> (forall j, (j < N)%nat -> (pc i <= pc j)%nat) ->
    exists w' s', steps w w' /\ sinv w' (fupd pc i (S (pc i))) s'.
  Proof.
    intros I Hi H4 Hmin.
    assert (G : exists w1 s1, steps w w1 /\ sinv w1 pc s1 /\ forall k, kr k = pc i -> forall j, (j < N)%nat -> nth_error (s1 i k) j = Some (hmsg k j i)).
    { destruct (pc i) as [|[|[|[|?]]]] eqn:Ep; [| | | |lia].
      - exists w, s. split; [constructor|]. split; [exact I|]. intros k Hk. destruct k; discriminate.
      - destruct (send_all w pc s K11 i N I Hi Hmin ltac:(lia)) as (w1 & s1 & S1 & I1 & F1 & _).
        destruct (send_all w1 pc s1 K12 i N I1 Hi Hmin ltac:(lia)) as (w2 & s2 & S2 & I2 & F2 & K2').
        exists w2, s2. split; [eapply v_steps_trans; eassumption|]. split; [exact I2|]. intros k Hk j Hj. destruct k; try discriminate; [rewrite K2' by discriminate; apply F1; exact Hj|apply F2; exact Hj].
      - destruct (send_all w pc s K2 i N I Hi Hmin ltac:(lia)) as (w1 & s1 & S1 & I1 & F1 & _).
        exists w1, s1. split; [exact S1|]. split; [exact I1|]. intros k Hk j Hj. destruct k; try discriminate. apply F1; exact Hj.
      - destruct (send_all w pc s K3 i N I Hi Hmin ltac:(lia)) as (w1 & s1 & S1 & I1 & F1 & _).
        exists w1, s1. split; [exact S1|]. split; [exact I1|]. intros k Hk j Hj. destruct k; try discriminate. apply F1; exact Hj. }
    destruct G as (w1 & s1 & S1 & I1 & F1).
    assert (FL : forall k, (kr k < S (pc i))%nat -> sfilled k i (s1 i k)).
    { intros k Hk. split; [apply (si_len _ _ _ I1); auto|]. intros j Hj. destruct (Nat.eq_dec (kr k) (pc i)) as [E|E]; [apply F1; auto|apply (si_full _ _ _ I1); auto; lia]. }
    destruct (exec_step w1 pc s1 (S (pc i)) i I1 Hi ltac:(lia) eq_refl FL) as (res & w' & s' & E & I' & Ok).
    exists w', s'. split; [|exact I']. eapply v_steps_trans; [exact S1|]. econstructor; [|exact E|constructor].
    split; [exact Hi|]. split; [lia|]. split.
    - rewrite (si_out _ _ _ I1) by (auto; lia). destruct (Nat.leb_spec (S (pc i)) (pc i)); [lia|reflexivity].
    - destruct (Nat.eq_dec (pc i) 0) as [E0|E0]; [left; lia|]. right. replace (S (pc i) - 1)%nat with (pc i) by lia.
      destruct (finish_full w1 pc s1 (pc i) i I1 Hi ltac:(lia)) as (res1 & F & Iff). exists (hout (pc i) i), res1.
      rewrite (si_out _ _ _ I1) by (auto; lia). rewrite Nat.leb_refl. split; [reflexivity|]. split; [exact F|]. apply Iff. intros k Hk. apply FL. lia.
  Qed.
  Lemma inv_complete w pc s : sinv w pc s -> (0 < N)%nat ->
    exists w', steps w w' /\ forall i, (i < N)%nat -> v_out w' 4%nat i = Some (sig_json hdata).
  Proof.
    intros I HN. remember (s_togo N pc) as t eqn:Et. revert w pc s I Et.
    induction t as [t IH] using (well_founded_induction lt_wf). intros w pc s I Et.
    destruct (s_min_exists pc N HN) as (i & Hi & Hmin).
    destruct (Nat.lt_ge_cases (pc i) 4) as [H4|H4].
    - destruct (advance_min w pc s i I Hi H4 Hmin) as (w1 & s1 & St & I1).
      destruct (IH (s_togo N (fupd pc i (S (pc i)))) ltac:(subst t; apply s_togo_dec; auto) w1 _ s1 I1 eq_refl) as (w' & St' & Hd).
      exists w'. split; [eapply v_steps_trans; eauto|exact Hd].
    - exists w. split; [constructor|]. intros j Hj. rewrite (si_out _ _ _ I) by (auto; lia). specialize (Hmin j Hj).
      destruct (Nat.leb_spec 4 (pc j)); [reflexivity|lia].
  Qed.
End World.
