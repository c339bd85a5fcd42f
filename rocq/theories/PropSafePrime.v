(** PropSafePrime.v -- property C47: the concurrent safe-prime search. *)
From Verif Require Import Base BigInt NumTh Euler RangeProofs Random PropRandom Jacobi Primes PropPrimes SafePrime.
From Coq Require Import Znumtheory.

(** ** the search *)
Lemma delta_loop_ge f qbl md delta p q p' q' : 0 <= delta -> delta_loop f qbl md delta p q = (p', q') -> q <= q'.
Proof.
  revert delta p q. induction f as [|f IH]; intros delta p q Hd; cbn [delta_loop].
  - intro E. assert (q = q') by congruence. lia.
  - destruct (delta_ok qbl md delta); [|intro E; apply IH in E; lia].
    destruct ((q + delta) mod 3 =? 1); [intro E; apply IH in E; lia|].
    destruct (is_candidate _); [|intro E; apply IH in E; lia]. intro E. assert (q + delta = q') by congruence. lia.
Qed.
(** a pair that is sent: Validate accepted it, it has the requested size, and its two top bits are set *)
Theorem C47_search_pass pp20 pp30 pbl p bs p' P Q : 6 <= pbl -> length bs = Z.to_nat ((pbl - 1 + 7) / 8) ->
  search_pass pp20 pp30 pbl p bs = (p', Some (P, Q)) ->
  P = 2 * Q + 1 /\ pp30 Q = true /\ pp30 P = true /\ bitlen Q = pbl - 1 /\ 3 * 2 ^ (pbl - 3) <= Q < 2 ^ (pbl - 1) /\ bitlen P = pbl /\ 3 * 2 ^ (pbl - 2) <= P < 2 ^ pbl.
Proof.
  intros Hp L. unfold search_pass. set (fuel := Z.to_nat (2 ^ 19)). clearbody fuel.
  destruct (shape_value (pbl - 1) bs ltac:(lia) L) as [O R]. set (q0 := of_be (shape (pbl - 1) bs)) in *. clearbody q0.
  destruct (delta_loop _ _ _ _ _ _) as [p1 q1] eqn:D. apply delta_loop_ge in D; [|lia].
  destruct (pp20 q1 && pock_p p1 && (bitlen q1 =? pbl - 1)) eqn:B; [|discriminate].
  apply andb_true_iff in B. destruct B as [_ B]. apply Z.eqb_eq in B.
  destruct (pp30 q1 && (2 * q1 + 1 =? p1) && pp30 p1) eqn:V; [|discriminate].
  apply andb_true_iff in V. destruct V as [V V3]. apply andb_true_iff in V. destruct V as [V1 V2]. apply Z.eqb_eq in V2.
  intro E. assert (p1 = P) by congruence. assert (q1 = Q) by congruence. subst p1 q1. clear E.
  replace (pbl - 1 - 2) with (pbl - 3) in R by lia.
  assert (W : 0 < 2 ^ (pbl - 3)) by (apply Z.pow_pos_nonneg; lia).
  pose proof (bitlen_eq Q (pbl - 1) ltac:(lia) B) as BQ.
  assert (E1 : 2 ^ pbl = 2 * 2 ^ (pbl - 1)) by (rewrite <- Z.pow_succ_r by lia; f_equal; lia).
  assert (E2 : 2 ^ (pbl - 1) = 2 * 2 ^ (pbl - 2)) by (rewrite <- Z.pow_succ_r by lia; f_equal; lia).
  assert (E3 : 2 ^ (pbl - 2) = 2 * 2 ^ (pbl - 3)) by (rewrite <- Z.pow_succ_r by lia; f_equal; lia).
  split; [lia|]. split; [exact V1|]. split; [congruence|]. split; [exact B|]. split; [lia|]. split; [|lia].
  unfold bitlen. destruct (Z.eqb_spec P 0); [lia|]. rewrite Z.abs_eq by lia.
  assert (LP : Z.log2 P = pbl - 1) by (apply Z.log2_unique; [lia|]; replace (Z.succ (pbl - 1)) with pbl by lia; lia). lia.
Qed.
Definition safe_pair (pbl : Z) (x : Z * Z) : Prop :=
  prime (fst x) /\ prime (snd x) /\ fst x = 2 * snd x + 1 /\ bitlen (fst x) = pbl /\ bitlen (snd x) = pbl - 1 /\
  3 * 2 ^ (pbl - 2) <= fst x.   (* the two top bits are set *)
Theorem C47_search pp20 pp30 fuel pbl p s x : 6 <= pbl -> (forall n, pp30 n = true -> prime n) ->
  In x (search pp20 pp30 fuel pbl p s) -> safe_pair pbl x.
Proof.
  intros Hp S. revert p s. induction fuel as [|f IH]; intros p s; [intros []|]. cbn [search].
  destruct (read_full _ s) as [[bs s']|] eqn:R; [|intros []]. apply read_full_spec in R. destruct R as [-> L].
  destruct (search_pass pp20 pp30 pbl p bs) as [p' [[P Q]|]] eqn:E; [|apply IH].
  intros [<-|I]; [|now apply IH in I]. apply C47_search_pass in E; [|exact Hp|exact L]. unfold safe_pair. cbn [fst snd].
  destruct E as [EP [V1 [V2 [B1 [_ [B2 [T _]]]]]]]. split; [now apply S|]. split; [now apply S|]. auto.
Qed.
(** a 6-bit search finds 29 and 59 (from the byte 3 as 27 + 2, from the byte 29 directly) *)
Theorem C47_search_ex : search (fun n => n =? 29) (fun n => (n =? 29) || (n =? 59)) 3 6 0 (map zb [3; 29]) = [(59, 29); (59, 29)].
Proof. vm_compute. reflexivity. Qed.
(** the residue test and the increments disagree: from q0 = 99, delta 2 gives 101, which is rejected because 203 = 7 * 29; delta 4 is then tested
    as 103 but added to 101, and the loop stops on 105 = 3 * 5 * 7. The later primality test is what rejects it *)
Theorem C47_search_sieve_refuted : delta_loop (Z.to_nat (2 ^ 19)) 7 (99 mod small_product) 0 0 99 = (211, 105) /\ (3 | 105) /\ (5 | 105) /\ (7 | 105).
Proof. split; [vm_compute; reflexivity|]. split; [now exists 35|]. split; [now exists 21|now exists 15]. Qed.

(** ** the collector *)
Section Coll.
  Context {A : Type}.
  Variables (n c : nat) (found : A -> Prop).
  Notation step := (cstep n c found).
  Notation reach := (creach n c found).

  Definition res_ok (r : result A) : Prop := match r with ROk l => length l = n /\ Forall found l | _ => True end.
  Definition main_ok (m : mainst A) : Prop :=
    match m with MCollect got => (length got < n)%nat /\ Forall found got | MReturning r | MWaiting r | MDone r => res_ok r end.
  Definition w_ok (w : worker A) : Prop := match w with WSend x => found x | _ => True end.
  Definition is_done (w : worker A) : nat := match w with WDone => 1 | _ => 0 end.
  Definition dones (l : list (worker A)) : nat := list_sum (map is_done l).
  Definition inv (s : cstate A) : Prop :=
    Forall found (cs_buf s) /\ (length (cs_buf s) <= c * n)%nat /\ Forall w_ok (cs_ws s) /\ length (cs_ws s) = c /\ main_ok (cs_main s) /\
    (cs_errs s <= dones (cs_ws s))%nat /\
    (match cs_main s with MDone _ => Forall (eq WDone) (cs_ws s) | _ => True end) /\
    (match cs_main s with MWaiting _ | MDone _ => cs_gctx s = true | _ => True end).

  Lemma upd_forall {B} (P : B -> Prop) i v l : Forall P l -> P v -> Forall P (upd i v l).
  Proof. intros F Pv. revert i. induction F as [|x l Px F IH]; intros [|i]; cbn [upd]; auto. Qed.
  Lemma dones_upd i w v l : nth_error l i = Some w -> (dones (upd i v l) + is_done w = dones l + is_done v)%nat.
  Proof.
    revert i. induction l as [|x l IH]; intros [|i] H; try discriminate; cbn [nth_error upd] in *.
    - injection H as ->. change (dones (v :: l)) with (is_done v + dones l)%nat. change (dones (w :: l)) with (is_done w + dones l)%nat. lia.
    - specialize (IH i H). change (dones (x :: upd i v l)) with (is_done x + dones (upd i v l))%nat. change (dones (x :: l)) with (is_done x + dones l)%nat. lia.
  Qed.
  Lemma dones_le l : (dones l <= length l)%nat.
  Proof. induction l as [|x l IH]; [cbn; lia|]. change (dones (x :: l)) with (is_done x + dones l)%nat. cbn [length]. destruct x; cbn [is_done]; lia. Qed.
  Lemma dones_all l : dones l = length l <-> Forall (eq WDone) l.
  Proof.
    induction l as [|x l IH]; [cbn; split; auto|]. change (dones (x :: l)) with (is_done x + dones l)%nat. cbn [length]. pose proof (dones_le l). split.
    - intro E. destruct x; cbn [is_done] in E; try lia. constructor; [reflexivity|]. apply IH. lia.
    - intro F. inversion F as [|? ? X Y]; subst. cbn [is_done]. apply IH in Y. lia.
  Qed.
  Lemma not_done_idx (l : list (worker A)) i w : nth_error l i = Some w -> w <> WDone -> ~ Forall (eq WDone) l.
  Proof. intros H N F. rewrite Forall_forall in F. apply N. symmetry. apply F. eapply nth_error_In. exact H. Qed.
  Lemma inv_init : (1 <= n)%nat -> inv (c_init c).
  Proof.
    intro Hn. unfold inv, c_init; cbn. split; [constructor|]. split; [lia|]. split; [|split; [apply repeat_length|]].
    - apply Forall_forall. intros x I. apply repeat_spec in I. now subst.
    - split; [split; [lia|constructor]|]. split; [lia|]. auto.
  Qed.
  Ltac wstep H D v := pose proof (dones_upd _ _ v _ H) as D; cbn [is_done] in D.
  Lemma inv_step s t : inv s -> step s t -> inv t.
  Proof.
    intros [B [BL [W [WL [M [E [D G]]]]]]] S. unfold inv.
    assert (ND : forall i w, nth_error (cs_ws s) i = Some w -> w <> WDone -> match cs_main s with MDone _ => False | _ => True end).
    { intros i w H N. destruct (cs_main s); auto. exact (not_done_idx _ _ _ H N D). }
    destruct S; unfold set_w, set_main; cbn [cs_buf cs_errs cs_ws cs_main cs_ctx cs_gctx].
    - wstep H DU (@WDone A). pose proof (ND _ _ H ltac:(discriminate)) as X. split; [exact B|]. split; [exact BL|]. split; [now apply upd_forall|]. split; [now rewrite upd_length|]. split; [exact M|]. split; [lia|]. split; [destruct (cs_main s); easy|exact G].
    - wstep H DU (@WPass A). pose proof (ND _ _ H ltac:(discriminate)) as X. split; [exact B|]. split; [exact BL|]. split; [now apply upd_forall|]. split; [now rewrite upd_length|]. split; [exact M|]. split; [lia|]. split; [destruct (cs_main s); easy|exact G].
    - wstep H DU (@WTop A). pose proof (ND _ _ H ltac:(discriminate)) as X. split; [exact B|]. split; [exact BL|]. split; [now apply upd_forall|]. split; [now rewrite upd_length|]. split; [exact M|]. split; [lia|]. split; [destruct (cs_main s); easy|exact G].
    - wstep H DU (WSend x). pose proof (ND _ _ H ltac:(discriminate)) as X. split; [exact B|]. split; [exact BL|]. split; [now apply upd_forall|]. split; [now rewrite upd_length|]. split; [exact M|]. split; [lia|]. split; [destruct (cs_main s); easy|exact G].
    - wstep H DU (@WErr A). pose proof (ND _ _ H ltac:(discriminate)) as X. split; [exact B|]. split; [exact BL|]. split; [now apply upd_forall|]. split; [now rewrite upd_length|]. split; [exact M|]. split; [lia|]. split; [destruct (cs_main s); easy|exact G].
    - wstep H DU (@WTop A). pose proof (ND _ _ H ltac:(discriminate)) as X.
      assert (Fx : found x) by (rewrite Forall_forall in W; exact (W _ (nth_error_In _ _ H))).
      split; [apply Forall_app; split; [exact B|now constructor]|]. split; [rewrite app_length; cbn; lia|]. split; [now apply upd_forall|]. split; [now rewrite upd_length|]. split; [exact M|]. split; [lia|]. split; [destruct (cs_main s); easy|exact G].
    - wstep H DU (@WDone A). pose proof (ND _ _ H ltac:(discriminate)) as X. split; [exact B|]. split; [exact BL|]. split; [now apply upd_forall|]. split; [now rewrite upd_length|]. split; [exact M|]. split; [lia|]. split; [destruct (cs_main s); easy|exact G].
    - rewrite H in M. destruct M as [M1 M2]. rewrite H0 in B, BL. cbn [length] in BL. inversion B as [|? ? Bx Br]; subst.
      split; [exact Br|]. split; [lia|]. split; [exact W|]. split; [reflexivity|]. split; [|split; [exact E|]].
      + assert (FA : Forall found (got ++ [x])) by (apply Forall_app; split; [exact M2|now constructor]).
        destruct (Nat.leb_spec n (length got + 1)); cbn [main_ok res_ok].
        * split; [rewrite firstn_length, app_length; cbn; lia|]. rewrite Forall_forall in *. intros y I. apply FA. rewrite <- (firstn_skipn n (got ++ [x])); apply in_or_app; now left.
        * split; [rewrite app_length; cbn; lia|exact FA].
      + destruct (Nat.leb n (length got + 1)); auto.
    - split; [exact B|]. split; [exact BL|]. split; [exact W|]. split; [exact WL|]. split; [exact I|]. split; [lia|]. auto.
    - split; [exact B|]. split; [exact BL|]. split; [exact W|]. split; [exact WL|]. split; [exact I|]. split; [lia|]. auto.
    - rewrite H in M. split; [exact B|]. split; [exact BL|]. split; [exact W|]. split; [exact WL|]. split; [exact M|]. split; [lia|]. auto.
    - rewrite H in M, G. split; [exact B|]. split; [exact BL|]. split; [exact W|]. split; [exact WL|]. split; [exact M|]. split; [lia|]. auto.
    - split; [exact B|]. split; [exact BL|]. split; [exact W|]. split; [exact WL|]. split; [exact M|]. split; [exact E|]. split; [exact D|]. destruct (cs_main s); auto.
  Qed.
  Lemma inv_reach s : (1 <= n)%nat -> reach (c_init c) s -> inv s.
  Proof. intros Hn R. remember (c_init c) as s0 eqn:E. induction R as [s|s t u R IH S]; [subst; now apply inv_init|]. eapply inv_step; [apply IH; exact E|exact S]. Qed.

  (** the call returns exactly numPrimes pairs, each of them one that a search pass sent *)
  Theorem C47_returned s l : (1 <= n)%nat -> reach (c_init c) s -> cs_main s = MDone (ROk l) -> length l = n /\ Forall found l.
  Proof. intros Hn R E. destruct (inv_reach s Hn R) as [_ [_ [_ [_ [M _]]]]]. rewrite E in M. exact M. Qed.
  (** when the channels are closed every goroutine has ended: nothing is sent on a closed channel *)
  Theorem C47_no_send_after_close s r : (1 <= n)%nat -> reach (c_init c) s -> cs_main s = MDone r -> Forall (eq WDone) (cs_ws s).
  Proof. intros Hn R E. destruct (inv_reach s Hn R) as [_ [_ [_ [_ [_ [_ [D _]]]]]]]. rewrite E in D. exact D. Qed.
  (** a goroutine that reports an error is never blocked *)
  Theorem C47_error_never_blocks s i : (1 <= n)%nat -> reach (c_init c) s -> nth_error (cs_ws s) i = Some WErr -> (cs_errs s < c)%nat.
  Proof.
    intros Hn R H. destruct (inv_reach s Hn R) as [_ [_ [_ [WL [_ [E _]]]]]].
    pose proof (dones_upd _ _ (@WDone A) _ H) as D. cbn [is_done] in D. pose proof (dones_le (upd i WDone (cs_ws s))) as L. rewrite upd_length in L. lia.
  Qed.

  Lemma reach_trans s t u : reach s t -> reach t u -> reach s u.
  Proof. intros R1 R2. induction R2 as [|a b d _ IH S]; [exact R1|]. eapply CR_step; [apply IH; exact R1|exact S]. Qed.
  Lemma reach1 s t : step s t -> reach s t.
  Proof. intro S. eapply CR_step; [apply CR_refl|exact S]. Qed.

  (** ** the deferred Wait
      A progress step is any step except the caller's own cancellation *)
  Definition progress (s t : cstate A) : Prop := step s t /\ (cs_ws t <> cs_ws s \/ cs_main t <> cs_main s).
  (** every schedule that keeps making progress steps reaches [P], and until then one is possible *)
  Inductive inevitable (P : cstate A -> Prop) (s : cstate A) : Prop :=
  | I_now : P s -> inevitable P s
  | I_later : (exists t, progress s t) -> (forall t, progress s t -> inevitable P t) -> inevitable P s.
  Definition weight (w : worker A) : nat := match w with WPass => 3 | WSend _ => 2 | WTop | WErr => 1 | WDone => 0 end.
  Definition pending (w : worker A) : nat := match w with WPass | WSend _ => 1 | _ => 0 end.
  (** goroutines that may still send a pair *)
  Definition pendings (l : list (worker A)) : nat := list_sum (map pending l).
  Definition weights (l : list (worker A)) : nat := list_sum (map weight l).
  Lemma sum_upd (f : worker A -> nat) i w v l : nth_error l i = Some w -> (list_sum (map f (upd i v l)) + f w = list_sum (map f l) + f v)%nat.
  Proof.
    revert i. induction l as [|x l IH]; intros [|i] H; try discriminate; cbn [nth_error upd map] in *.
    - injection H as ->. change (list_sum (f v :: map f l)) with (f v + list_sum (map f l))%nat. change (list_sum (f w :: map f l)) with (f w + list_sum (map f l))%nat. lia.
    - specialize (IH i H). change (list_sum (f x :: map f l)) with (f x + list_sum (map f l))%nat. change (list_sum (f x :: map f (upd i v l))) with (f x + list_sum (map f (upd i v l)))%nat. lia.
  Qed.
  Lemma upd_neq i (w v : worker A) l : nth_error l i = Some w -> v <> w -> upd i v l <> l.
  Proof. intros H N E. apply N. assert (nth_error (upd i v l) i = Some v) by (apply nth_error_upd_same; apply nth_error_Some; congruence). congruence. Qed.
  Lemma not_all_done (l : list (worker A)) : ~ Forall (eq WDone) l -> exists i w, nth_error l i = Some w /\ w <> WDone.
  Proof.
    induction l as [|x l IH]; intro N; [exfalso; apply N; constructor|].
    assert (X : x = WDone \/ x <> WDone) by (destruct x; auto; right; discriminate). destruct X as [->|X].
    - destruct IH as [i [w [H K]]]; [intro F; apply N; now constructor|]. exists (S i), w. now split.
    - exists 0%nat, x. now split.
  Qed.
  Lemma all_done_dec (l : list (worker A)) : {Forall (eq WDone) l} + {~ Forall (eq WDone) l}.
  Proof. apply Forall_dec. intros []; auto; right; discriminate. Qed.

  Lemma wait_inevitable k : forall s r, (weights (cs_ws s) <= k)%nat -> inv s -> cs_main s = MWaiting r ->
    (length (cs_buf s) + pendings (cs_ws s) <= c * n)%nat -> inevitable (fun t => cs_main t = MDone r) s.
  Proof.
    induction k as [k IH] using lt_wf_ind. intros s r HK I M R. pose proof I as [_ [_ [_ [WL [_ [E [_ G]]]]]]]. rewrite M in G.
    assert (NB : forall i x, nth_error (cs_ws s) i = Some (WSend x) -> (length (cs_buf s) < c * n)%nat).
    { intros i x H. pose proof (sum_upd pending i _ WDone _ H) as Q. unfold pendings in R. cbn [pending] in Q. lia. }
    assert (EB : forall i, nth_error (cs_ws s) i = Some WErr -> (cs_errs s < c)%nat).
    { intros i H. pose proof (dones_upd _ _ (@WDone A) _ H) as D. cbn [is_done] in D. pose proof (dones_le (upd i WDone (cs_ws s))) as L. rewrite upd_length in L. lia. }
    apply I_later.
    - destruct (all_done_dec (cs_ws s)) as [F|F].
      + exists (set_main s (MDone r)). split; [now apply S_wait|]. right. cbn. congruence.
      + apply not_all_done in F. destruct F as [i [w [H N]]].
        assert (U : forall v, v <> w -> upd i v (cs_ws s) <> cs_ws s) by (intros v Nv; eapply upd_neq; [exact H|exact Nv]).
        destruct w; [| | | |congruence].
        * exists (set_w s i WDone). split; [now apply S_stop|]. left. apply U. discriminate.
        * exists (set_w s i WTop). split; [now apply S_none|]. left. apply U. discriminate.
        * eexists. split; [apply (S_send _ _ _ s i x H (NB _ _ H))|]. left. cbn. apply U. discriminate.
        * eexists. split; [apply (S_err _ _ _ s i H (EB _ H))|]. left. cbn. apply U. discriminate.
    - intros t [S Ch]. pose proof (inv_step _ _ I S) as IT.
      assert (Fin : forall i w v, nth_error (cs_ws s) i = Some w -> (weight v < weight w)%nat -> cs_ws t = upd i v (cs_ws s) -> cs_main t = cs_main s ->
                (length (cs_buf t) + pending v <= length (cs_buf s) + pending w)%nat -> inevitable (fun t => cs_main t = MDone r) t).
      { intros i w v H L ET EM EB2. pose proof (sum_upd weight i w v _ H) as QW. pose proof (sum_upd pending i w v _ H) as QP.
        apply (IH (weights (cs_ws t))); [rewrite ET; unfold weights in *; lia|lia|exact IT|congruence|rewrite ET; unfold pendings in *; lia]. }
      destruct S; try congruence.
      + apply (Fin i WTop WDone H); [cbn; lia|reflexivity|reflexivity|cbn; lia].
      + apply (Fin i WPass WTop H); [cbn; lia|reflexivity|reflexivity|cbn; lia].
      + apply (Fin i WPass (WSend x) H); [cbn; lia|reflexivity|reflexivity|cbn; lia].
      + apply (Fin i WPass WErr H); [cbn; lia|reflexivity|reflexivity|cbn; lia].
      + apply (Fin i (WSend x) WTop H); [cbn; lia|reflexivity|reflexivity|cbn [cs_buf]; rewrite app_length; cbn; lia].
      + apply (Fin i WErr WDone H); [cbn; lia|reflexivity|reflexivity|cbn; lia].
      + apply I_now. cbn. congruence.
      + exfalso. cbn in Ch. destruct Ch as [Ch|Ch]; now apply Ch.
  Qed.
  (** if, when the call has its result and cancels the search, the buffer has room for every pair still on its way, then the call returns *)
  Theorem C47_returns_with_room_partial s r : (1 <= n)%nat -> reach (c_init c) s -> cs_main s = MWaiting r ->
    (length (cs_buf s) + pendings (cs_ws s) <= c * n)%nat -> inevitable (fun t => cs_main t = MDone r) s.
  Proof. intros Hn R M L. eapply wait_inevitable; [apply Nat.le_refl|now apply inv_reach|exact M|exact L]. Qed.

  (** without any goroutine the call can only end by cancellation *)
  Theorem C47_zero_concurrency s r : c = 0%nat -> reach (c_init c) s -> cs_main s = MDone r -> r = RCancelled.
  Proof.
    intros C R E.
    assert (K : cs_buf s = [] /\ cs_errs s = 0%nat /\ cs_ws s = [] /\ match cs_main s with MCollect _ => True | MReturning r | MWaiting r | MDone r => r = RCancelled end).
    { clear E r. remember (c_init c) as s0 eqn:E0. induction R as [s|s t u R IH S].
      - subst s. rewrite C. cbn. auto.
      - destruct (IH E0) as [B [Er [W M]]]. clear IH. destruct S; cbn; try (rewrite W in *; destruct i; discriminate); try congruence; try (rewrite H in M); auto. }
    rewrite E in K. apply K.
  Qed.

  (** ** the deadlock *)
  Section Dead.
    Variables (x : A) (c' n' : nat).
    Hypothesis Fx : found x.
    Hypothesis Hc : c = S c'.
    Hypothesis Hn : n = S n'.
    Definition st (j : nat) (w : worker A) (m : mainst A) : cstate A := CState (repeat x j) 0 (w :: repeat WTop c') m false false.
    Lemma rep_snoc k : repeat x k ++ [x] = repeat x (S k).
    Proof. symmetry. apply repeat_cons. Qed.
    Lemma produce j m : (j < c * n)%nat -> reach (st j WTop m) (st (S j) WTop m).
    Proof.
      intro L. eapply CR_step; [eapply CR_step; [apply reach1|]|].
      - apply (S_begin n c found (st j WTop m) 0); reflexivity.
      - apply (S_found n c found _ 0 x); [reflexivity|exact Fx].
      - pose proof (S_send n c found (set_w (set_w (st j WTop m) 0 WPass) 0 (WSend x)) 0 x eq_refl) as K. cbn in K. rewrite repeat_length, rep_snoc in K. apply K. exact L.
    Qed.
    Lemma fill j k m : (j + k <= c * n)%nat -> reach (st j WTop m) (st (j + k) WTop m).
    Proof.
      induction k as [|k IH]; intro L; [rewrite Nat.add_0_r; apply CR_refl|]. eapply reach_trans; [apply IH; lia|].
      rewrite Nat.add_succ_r. apply produce. lia.
    Qed.
    Lemma take_one k : (S k < n)%nat -> reach (st (c * n) WTop (MCollect (repeat x k))) (st (c * n) WTop (MCollect (repeat x (S k)))).
    Proof.
      intro L. assert (B : exists b, (c * n = S b)%nat) by (exists (c * n - 1)%nat; rewrite Hc in *; cbn; lia). destruct B as [b Hb].
      eapply reach_trans; [apply reach1|].
      - rewrite Hb. apply (S_take n c found (st (S b) WTop (MCollect (repeat x k))) x (repeat x b) (repeat x k)); reflexivity.
      - cbn. rewrite rep_snoc, repeat_length. destruct (Nat.leb_spec n (k + 1)); [lia|]. rewrite Hb. apply (produce b). lia.
    Qed.
    Lemma take_many k : (k < n)%nat -> reach (st (c * n) WTop (MCollect [])) (st (c * n) WTop (MCollect (repeat x k))).
    Proof. induction k as [|k IH]; intro L; [apply CR_refl|]. eapply reach_trans; [apply IH; lia|]. now apply take_one. Qed.
    Definition dead (t : cstate A) : Prop :=
      length (cs_buf t) = (c * n)%nat /\ cs_ws t = WSend x :: repeat WDone c' /\ cs_main t = MWaiting (ROk (repeat x n)).
    Lemma dead_step s t : dead s -> step s t -> dead t.
    Proof.
      intros [B [W M]] S. assert (N : forall i w, nth_error (cs_ws s) i = Some w -> w = WSend x \/ w = WDone).
      { intros i w H. rewrite W in H. destruct i; cbn in H; [injection H as <-; now left|]. right. apply nth_error_In in H. now apply repeat_spec in H. }
      destruct S; try (destruct (N _ _ H); discriminate); try congruence; try (rewrite M in H; discriminate).
      - lia.
      - exfalso. rewrite W in H0. inversion H0 as [|? ? X]. discriminate.
      - split; [exact B|]. split; [exact W|exact M].
    Qed.
    Lemma stop_all k d : (k + d = c')%nat -> forall b g, reach (CState b 0 (WSend x :: repeat WDone d ++ repeat WTop k) (MWaiting g) false true) (CState b 0 (WSend x :: repeat WDone c') (MWaiting g) false true).
    Proof.
      revert d. induction k as [|k IH]; intros d L b g.
      - cbn [repeat]. rewrite app_nil_r. replace d with c' by lia. apply CR_refl.
      - eapply reach_trans; [apply reach1; apply (S_stop n c found _ (S d)); [|reflexivity]|].
        + cbn [cs_ws nth_error]. rewrite nth_error_app2 by (rewrite repeat_length; lia). rewrite repeat_length, Nat.sub_diag. reflexivity.
        + unfold set_w. cbn [cs_buf cs_errs cs_ws cs_main cs_ctx cs_gctx upd].
          assert (U : upd d WDone (repeat (@WDone A) d ++ repeat WTop (S k)) = repeat WDone (S d) ++ repeat WTop k).
          { clear. induction d as [|d IH]; [reflexivity|]. change (repeat (@WDone A) (S d)) with (@WDone A :: repeat WDone d) at 1. cbn [app upd]. rewrite IH. reflexivity. }
          rewrite U. apply IH. lia.
    Qed.
    Lemma dead_reachable : exists s, reach (c_init c) s /\ cs_ctx s = false /\ dead s.
    Proof using Fx Hc Hn.
      assert (B : exists b, (c * n = S b)%nat) by (exists (c * n - 1)%nat; rewrite Hc, Hn in *; cbn; lia). destruct B as [b Hb].
      exists (CState (repeat x (c * n)) 0 (WSend x :: repeat WDone c') (MWaiting (ROk (repeat x n))) false true). split; [|split; [reflexivity|split; [apply repeat_length|split; reflexivity]]].
      assert (I0 : c_init c = st 0 WTop (MCollect [])) by (unfold c_init, st; rewrite Hc; reflexivity). rewrite I0.
      eapply reach_trans; [apply (fill 0 (c * n)); lia|]. eapply reach_trans; [apply (take_many n'); lia|].
      (* the last pair is taken, the buffer is refilled, one more pair is found, then main cancels *)
      eapply reach_trans; [apply reach1; rewrite Hb; apply (S_take n c found (st (S b) WTop (MCollect (repeat x n'))) x (repeat x b) (repeat x n')); reflexivity|].
      cbn [cs_errs cs_ws cs_ctx cs_gctx st]. rewrite rep_snoc, repeat_length, <- Hn. destruct (Nat.leb_spec n (n' + 1)); [|lia].
      rewrite (firstn_all2 (n := n) (repeat x n)) by (rewrite repeat_length; lia).
      fold (st b WTop (MReturning (ROk (repeat x n)))). eapply reach_trans; [apply (produce b); lia|].
      eapply reach_trans; [apply reach1; apply (S_begin n c found _ 0); reflexivity|].
      eapply reach_trans; [apply reach1; apply (S_found n c found _ 0 x); [reflexivity|exact Fx]|].
      eapply reach_trans; [apply reach1; apply (S_cancel n c found _ (ROk (repeat x n))); reflexivity|].
      unfold set_w. cbn [cs_buf cs_errs cs_ws cs_main cs_ctx cs_gctx st upd]. rewrite <- Hb. apply (stop_all c' 0). lia.
    Qed.
  End Dead.
  (** with at least one goroutine there is a schedule -- no error, no cancellation -- after which the call has its result but never returns:
      a goroutine is blocked on the full buffer that nobody reads while the call waits for that goroutine *)
  Theorem C47_returns_refuted x : found x -> (1 <= c)%nat -> (1 <= n)%nat ->
    exists s, reach (c_init c) s /\ cs_ctx s = false /\ forall t, reach s t -> cs_main t = MWaiting (ROk (repeat x n)).
  Proof.
    intros Fx Hc Hn. destruct (dead_reachable x (c - 1) (n - 1) Fx ltac:(lia) ltac:(lia)) as [s [R [X D]]].
    exists s. split; [exact R|]. split; [exact X|]. intros t Rt.
    assert (Dt : dead x (c - 1) t) by (clear R X; induction Rt as [|a b d _ IH S]; [exact D|specialize (IH D); eapply (dead_step x (c - 1) (n - 1)); [lia|lia|exact IH|exact S]]).
    apply Dt.
  Qed.
End Coll.

(** the collector over the search: what GetRandomSafePrimesConcurrent returns are safe primes of the requested size *)
Theorem C47_returned_safe_primes pp20 pp30 pbl n c s l : 6 <= pbl -> (1 <= n)%nat -> (forall z, pp30 z = true -> prime z) ->
  creach n c (fun x => exists fuel p stream, In x (search pp20 pp30 fuel pbl p stream)) (c_init c) s -> cs_main s = MDone (ROk l) ->
  length l = n /\ Forall (safe_pair pbl) l.
Proof.
  intros Hp Hn S R E. destruct (C47_returned n c _ s l Hn R E) as [L F]. split; [exact L|].
  eapply Forall_impl; [|exact F]. intros x [fuel [p [st I]]]. eapply C47_search; eassumption.
Qed.
(** the hypotheses are met: one goroutine, one prime, the call returns [59 = 2 * 29 + 1] *)
Theorem C47_returned_ex : exists s, creach 1 1 (fun x => x = (59, 29)) (c_init 1) s /\ cs_main s = MDone (ROk [(59, 29)]).
Proof.
  eexists. split.
  - eapply CR_step; [eapply CR_step; [eapply CR_step; [eapply CR_step; [eapply CR_step; [eapply CR_step; [eapply CR_step; [apply CR_refl|]|]|]|]|]|]|].
    + apply (S_begin 1 1 _ _ 0); reflexivity.
    + apply (S_found 1 1 _ _ 0 (59, 29)); reflexivity.
    + apply (S_send 1 1 _ _ 0 (59, 29)); [reflexivity|cbn; lia].
    + eapply (S_take 1 1); reflexivity.
    + eapply (S_cancel 1 1). reflexivity.
    + apply (S_stop 1 1 _ _ 0); reflexivity.
    + eapply (S_wait 1 1); [reflexivity|]. cbn. repeat constructor.
  - reflexivity.
Qed.
