(** PropConc.v -- C70: calls from several goroutines.  If New and Remove are exclusive and two goroutines are never inside the
    same session, every schedule is equivalent to a sequential history; without that, two calls that are fine one after the
    other can end the process. *)
From Verif Require Import Base BigInt Text Wire Messages PartyID Curve Save Keygen KeygenAdv RangeProofs Ckd Onsign OnsignHist PropSign Api PropApi Conc.

(** ** Specification *)
(** the call a goroutine is inside of *)
Definition busy (t : thread) : option api :=
  match t_ph t with Idle => None | Look o | Work o _ | NewW o _ _ | DelW o => Some o end.
Definition is_round (o : api) : bool := negb (is_new o) && negb (is_remove o).
(** two calls that may overlap: round calls on different sessions *)
Definition may_overlap (o o' : api) : Prop := is_round o = true /\ is_round o' = true /\ target o <> target o'.
(** the discipline: goroutine i begins its next call only if that call may overlap every call in progress *)
Definition may_go (s : cstate) (i : nat) : Prop := forall ti o l, nth_error (c_thr s) i = Some ti -> t_ph ti = Idle -> t_prog ti = o :: l ->
  forall j tj o', j <> i -> nth_error (c_thr s) j = Some tj -> busy tj = Some o' -> may_overlap o o'.
Definition calls (l : list (nat * (api * reply))) : list api := map (fun x => fst (snd x)) l.
Definition replies (l : list (nat * (api * reply))) : list reply := map (fun x => snd (snd x)) l.
(** the calls goroutine i has completed *)
Definition done_by (i : nat) (l : list (nat * (api * reply))) : list api := calls (filter (fun x => (fst x =? i)%nat) l).
(** the session a key stands for *)
Definition creg (s : cstate) (t : bool * bytes) : option nat := mget (snd t) (c_reg (fst t) s).
Definition csess (s : cstate) (t : bool * bytes) : option session :=
  match creg s t with Some id => nth_error (c_heap s) id | None => None end.
(** every registered key has its own party; nothing is going on yet *)
Definition quiet (s : cstate) : Prop :=
  (forall t id, creg s t = Some id -> (id < length (c_heap s))%nat) /\
  (forall t t' id, creg s t = Some id -> creg s t' = Some id -> t = t') /\
  (forall i ti, nth_error (c_thr s) i = Some ti -> t_ph ti = Idle) /\ c_log s = [].

Section P.
  Variables (C : curve) (D : edlib) (H B S5 : bytes -> bytes) (HM : bytes -> bytes -> bytes) (spare : bytes -> bytes).
  Notation run := (api_run C D H B S5 HM spare).
  Notation hist := (api_hist C D H B S5 HM spare).
  Notation step := (cstep C D H B S5 HM spare).
  Notation sched := (csched C D H B S5 HM spare).
  Notation build := (build C HM spare).
  Notation body := (body C D H B S5).

  (** a schedule that keeps the discipline at every step *)
  Fixpoint polite (l : list nat) (s : cstate) : Prop :=
    match l with
    | [] => True
    | i :: l => may_go s i /\ forall s', step i s = Ret s' -> polite l s'
    end.

  (** *** the sequential calls in terms of [build] and [body] *)
  Lemma run_new o a r x : is_new o = true -> build o = Ret (r, x) ->
    exists a', run o a = Ret (r, a') /\ match x with None => a' = a | Some x => sess a' (target o) = Some x end.
  Proof.
    destruct o as [key i n pids root|key|key k|key i n pids msg kd rf path|key|key k]; cbn [is_new]; intros Hn; try discriminate; cbn [Conc.build api_run target].
    - destruct (kg_new _ _ _ _) as [[r0 [p|]]|]; cbn [obind option_map]; intro E; try discriminate; injection E as <- <-; eexists; (split; [reflexivity|]); [|reflexivity].
      unfold sess; cbn [fst snd a_kg]. rewrite mget_put_same. reflexivity.
    - destruct (sg_new _ _ _ _ _ _ _ _ _ _) as [[r0 [p|]]|]; cbn [obind option_map]; intro E; try discriminate; injection E as <- <-; eexists; (split; [reflexivity|]); [|reflexivity].
      unfold sess; cbn [fst snd a_sg]. rewrite mget_put_same. reflexivity.
  Qed.
  Lemma run_new_panic o a : is_new o = true -> build o = Panic -> run o a = Panic.
  Proof.
    destruct o as [key i n pids root|key|key k|key i n pids msg kd rf path|key|key k]; cbn [is_new]; intros Hn; try discriminate; cbn [Conc.build api_run].
    - destruct (kg_new _ _ _ _) as [[r0 [p|]]|]; cbn [obind]; intro E; try discriminate; reflexivity.
    - destruct (sg_new _ _ _ _ _ _ _ _ _ _) as [[r0 [p|]]|]; cbn [obind]; intro E; try discriminate; reflexivity.
  Qed.
  Lemma run_body o a x : is_round o = true -> sess a (target o) = Some x ->
    match body o x with
    | Ret (r, x') => exists a', run o a = Ret (r, a') /\ sess a' (target o) = Some x'
    | Panic => run o a = Panic end.
  Proof.
    destruct o as [key i n pids root|key|key k|key i n pids msg kd rf path|key|key k]; cbn [is_round is_new is_remove negb andb]; intros Hn; try discriminate;
      unfold sess; cbn [target fst snd api_run]; intro E.
    - destruct (mget key (a_kg a)) as [p|] eqn:G; cbn [option_map] in E; [|discriminate]. injection E as <-. cbn [Conc.body].
      destruct (kop_run _ _ _ _) as [[r0 p']|]; cbn [obind]; [|reflexivity]. eexists. split; [reflexivity|]. cbn [a_kg]. rewrite mget_put_same. reflexivity.
    - destruct (mget key (a_sg a)) as [p|] eqn:G; cbn [option_map] in E; [|discriminate]. injection E as <-. cbn [Conc.body].
      destruct (sop_run _ _ _ _ _ _) as [[r0 p']|]; cbn [obind]; [|reflexivity]. eexists. split; [reflexivity|]. cbn [a_sg]. rewrite mget_put_same. reflexivity.
  Qed.
  Lemma run_absent o a : is_new o = false -> sess a (target o) = None -> run o a = Ret (if is_remove o then RBool false else RRes (fail ENotFound), a).
  Proof.
    destruct o as [key i n pids root|key|key k|key i n pids msg kd rf path|key|key k]; cbn [is_new is_remove]; intros Hn; try discriminate;
      unfold sess; cbn [target fst snd api_run]; intro E; destruct (mget key _) as [p|]; cbn in E; try discriminate; reflexivity.
  Qed.
  Lemma run_delete o a : is_remove o = true -> sess a (target o) <> None -> exists a', run o a = Ret (RBool true, a') /\ sess a' (target o) = None.
  Proof.
    destruct o as [key i n pids root|key|key k|key i n pids msg kd rf path|key|key k]; cbn [is_remove]; intros Hn; try discriminate;
      unfold sess; cbn [target fst snd api_run]; intro E; destruct (mget key _) as [p|]; cbn in E; try (exfalso; auto; fail);
      (eexists; split; [reflexivity|]; cbn [a_kg a_sg]; rewrite mget_del_same; reflexivity).
  Qed.
  Lemma hist_snoc l o : forall a rs a1 r a2, hist l a = Ret (rs, a1) -> run o a1 = Ret (r, a2) -> hist (l ++ [o]) a = Ret (rs ++ [r], a2).
  Proof.
    induction l as [|o' l IH]; intros a rs a1 r a2; cbn [api_hist app].
    - intros E R. injection E as <- <-. rewrite R. reflexivity.
    - destruct (run o' a) as [[r' a']|]; [|discriminate]. cbn [obind]. destruct (hist l a') as [[rs' a'']|] eqn:Hh; [|discriminate]. cbn [obind].
      intros E R. injection E as <- <-. rewrite (IH _ _ _ _ _ Hh R). reflexivity.
  Qed.
  Lemma hist_snoc_panic l o : forall a rs a1, hist l a = Ret (rs, a1) -> run o a1 = Panic -> hist (l ++ [o]) a = Panic.
  Proof.
    induction l as [|o' l IH]; intros a rs a1; cbn [api_hist app].
    - intros E R. injection E as <- <-. rewrite R. reflexivity.
    - destruct (run o' a) as [[r' a']|]; [|discriminate]. cbn [obind]. destruct (hist l a') as [[rs' a'']|] eqn:Hh; [|discriminate]. cbn [obind].
      intros E R. injection E as <- <-. rewrite (IH _ _ _ Hh R). reflexivity.
  Qed.

  (** *** the invariant *)
  Definition ph_ok (s : cstate) (ph : phase) : Prop :=
    match ph with
    | Idle => True
    | Look o => is_new o = false
    | Work o id => is_round o = true /\ creg s (target o) = Some id
    | NewW o r x => is_new o = true /\ build o = Ret (r, Some x)
    | DelW o => is_remove o = true /\ creg s (target o) <> None
    end.
  Record inv (a0 : api_state) (s : cstate) (a : api_state) : Prop := {
    iv_hist : hist (calls (c_log s)) a0 = Ret (replies (c_log s), a);
    iv_sess : forall t, csess s t = sess a t;
    iv_low : forall t id, creg s t = Some id -> (id < length (c_heap s))%nat;
    iv_inj : forall t t' id, creg s t = Some id -> creg s t' = Some id -> t = t';
    iv_ph : forall i ti, nth_error (c_thr s) i = Some ti -> ph_ok s (t_ph ti);
    iv_ov : forall i j ti tj o o', i <> j -> nth_error (c_thr s) i = Some ti -> nth_error (c_thr s) j = Some tj -> busy ti = Some o -> busy tj = Some o' -> may_overlap o o' }.

  Lemma upd_cases {A} i (v : A) l j t : nth_error (upd i v l) j = Some t -> (j = i /\ t = v) \/ (j <> i /\ nth_error l j = Some t).
  Proof.
    intro E. destruct (Nat.eq_dec j i) as [->|Ne]; [|right; rewrite nth_error_upd_diff in E by auto; auto].
    assert (L : (i < length (upd i v l))%nat) by (apply nth_error_Some; congruence). rewrite upd_length in L. rewrite nth_error_upd_same in E by exact L. left. split; congruence.
  Qed.
  Lemma calls_app l i o r : calls (l ++ [(i, (o, r))]) = calls l ++ [o]. Proof. unfold calls. rewrite map_app. reflexivity. Qed.
  Lemma replies_app l i o r : replies (l ++ [(i, (o, r))]) = replies l ++ [r]. Proof. unfold replies. rewrite map_app. reflexivity. Qed.

  (** a step that only moves goroutine i to another phase of a call *)
  Lemma inv_phase a0 s a i ph l : inv a0 s a -> ph_ok s ph ->
    (forall o, busy {| t_ph := ph; t_prog := l |} = Some o -> forall j tj o', j <> i -> nth_error (c_thr s) j = Some tj -> busy tj = Some o' -> may_overlap o o') ->
    inv a0 (with_thr i ph l s) a.
  Proof.
    intros I P O. destruct I as [I1 I2 I3 I4 I5 I6]. constructor.
    - exact I1.
    - exact I2.
    - exact I3.
    - exact I4.
    - intros j tj E. apply upd_cases in E. destruct E as [[-> ->]|[_ E]]; [exact P|exact (I5 _ _ E)].
    - intros j k tj tk o o' Ne Ej Ek Bj Bk. apply upd_cases in Ej. apply upd_cases in Ek.
      destruct Ej as [[-> ->]|[Nj Ej]], Ek as [[-> ->]|[Nk Ek]]; [congruence|exact (O _ Bj _ _ _ Nk Ek Bk)| |exact (I6 _ _ _ _ _ _ Ne Ej Ek Bj Bk)].
      destruct (O _ Bk _ _ _ Nj Ej Bj) as (A1 & A2 & A3). split; [exact A2|]. split; [exact A1|]. intro Q. apply A3. symmetry. exact Q.
  Qed.
  (** a step that completes a call *)
  Lemma inv_return a0 s a i o r l s1 a1 : inv a0 s a -> c_thr s1 = c_thr s -> c_log s1 = c_log s -> run o a = Ret (r, a1) ->
    (forall t, csess s1 t = sess a1 t) ->
    (forall t id, creg s1 t = Some id -> (id < length (c_heap s1))%nat) ->
    (forall t t' id, creg s1 t = Some id -> creg s1 t' = Some id -> t = t') ->
    (forall j tj, j <> i -> nth_error (c_thr s) j = Some tj -> ph_ok s1 (t_ph tj)) ->
    inv a0 (return_ i o r l s1) a1.
  Proof.
    intros I ET EL R Hs Hl Hi Hp. destruct I as [I1 I2 I3 I4 I5 I6]. constructor.
    - change (c_log (return_ i o r l s1)) with (c_log s1 ++ [(i, (o, r))]). rewrite EL, calls_app, replies_app. eapply hist_snoc; eassumption.
    - exact Hs.
    - exact Hl.
    - exact Hi.
    - intros j tj E. change (c_thr (return_ i o r l s1)) with (upd i {| t_ph := Idle; t_prog := l |} (c_thr s1)) in E. rewrite ET in E.
      apply upd_cases in E. destruct E as [[-> ->]|[Nj E]]; [exact I|exact (Hp _ _ Nj E)].
    - intros j k tj tk o1 o2 Ne Ej Ek Bj Bk. change (c_thr (return_ i o r l s1)) with (upd i {| t_ph := Idle; t_prog := l |} (c_thr s1)) in Ej, Ek. rewrite ET in Ej, Ek.
      apply upd_cases in Ej. apply upd_cases in Ek.
      destruct Ej as [[-> ->]|[Nj Ej]]; [discriminate|]. destruct Ek as [[-> ->]|[Nk Ek]]; [discriminate|]. exact (I6 _ _ _ _ _ _ Ne Ej Ek Bj Bk).
  Qed.
  Lemma not_writing a0 s a i b : inv a0 s a -> (forall ti, nth_error (c_thr s) i = Some ti -> match t_ph ti with NewW _ _ _ | DelW _ => False | _ => True end) ->
    (forall j tj o', j <> i -> nth_error (c_thr s) j = Some tj -> busy tj = Some o' -> is_round o' = true) -> writing b s = false.
  Proof.
    intros I N O. destruct (writing b s) eqn:W; [|reflexivity]. exfalso. apply existsb_exists in W. destruct W as (t & Hin & W).
    apply In_nth_error in Hin. destruct Hin as (j & E). pose proof (iv_ph _ _ _ I _ _ E) as P. unfold writes in W.
    destruct (Nat.eq_dec j i) as [->|Ne]; [specialize (N _ E); destruct (t_ph t); try discriminate; contradiction|].
    destruct (t_ph t) as [|o|o id|o r x|o] eqn:Eph; try discriminate; cbn [ph_ok] in P; assert (Q : is_round o = true) by (eapply (O j t o Ne E); unfold busy; rewrite Eph; reflexivity);
      unfold is_round in Q; destruct P as [P _]; rewrite P in Q; [|rewrite andb_false_r in Q]; discriminate.
  Qed.
  (** what a goroutine is doing or about to do *)
  Definition current (s : cstate) (i : nat) (o : api) : Prop :=
    exists ti, nth_error (c_thr s) i = Some ti /\ (busy ti = Some o \/ (t_ph ti = Idle /\ exists l, t_prog ti = o :: l)).

  Lemma step_inv a0 s a i : inv a0 s a -> may_go s i ->
    match step i s with
    | Ret s' => exists a', inv a0 s' a'
    | Panic => exists o, current s i o /\ run o a = Panic
    end.
  Proof.
    intros I G. unfold cstep. destruct (nth_error (c_thr s) i) as [ti|] eqn:Et; [|exists a; exact I].
    pose proof (iv_ph _ _ _ I _ _ Et) as P. destruct (t_ph ti) as [|o|o id|o r x|o] eqn:Eph; cbn [ph_ok] in P.
    - destruct (t_prog ti) as [|o l] eqn:Ep; [exists a; exact I|]. pose proof (G ti o l Et Eph Ep) as O.
      assert (NW : forall b, writing b s = false).
      { intro b. apply (not_writing a0 s a i b I); [intros t E; replace t with ti by congruence; rewrite Eph; exact Logic.I|]. intros j tj o' Ne Ej Bj. apply (O j tj o' Ne Ej Bj). }
      assert (CU : current s i o) by (exists ti; split; [exact Et|right; eauto]).
      destruct (is_new o) eqn:En.
      + destruct (build o) as [[r [x|]]|] eqn:Eb; cbn [obind].
        * rewrite NW. exists a. apply inv_phase; [exact I|split; assumption|]. intros o1 B1. cbn in B1. replace o1 with o by congruence. exact O.
        * destruct (run_new o a r None En Eb) as (a' & R & ->). exists a.
          apply (inv_return a0 s a i o r l s a I eq_refl eq_refl R (iv_sess _ _ _ I) (iv_low _ _ _ I) (iv_inj _ _ _ I)). intros j tj _ Ej. exact (iv_ph _ _ _ I _ _ Ej).
        * exists o. split; [exact CU|]. apply run_new_panic; assumption.
      + rewrite NW, andb_false_r. exists a. apply inv_phase; [exact I|exact En|]. intros o1 B1. cbn in B1. replace o1 with o by congruence. exact O.
    - assert (Bu : busy ti = Some o) by (unfold busy; rewrite Eph; reflexivity).
      fold (creg s (target o)). destruct (creg s (target o)) as [id|] eqn:Eg.
      + destruct (is_remove o) eqn:Er.
        * assert (NW : writing (fst (target o)) s = false).
          { apply (not_writing a0 s a i _ I); [intros t E; replace t with ti by congruence; rewrite Eph; exact Logic.I|]. intros j tj o' Ne Ej Bj. assert (Ne' : i <> j) by auto. apply (iv_ov _ _ _ I _ _ _ _ _ _ Ne' Et Ej Bu Bj). }
          rewrite NW. exists a. apply inv_phase; [exact I|split; [exact Er|congruence]|]. intros o1 B1. cbn in B1. replace o1 with o by congruence.
          intros j tj o' Ne Ej Bj. assert (Ne' : i <> j) by auto. apply (iv_ov _ _ _ I _ _ _ _ _ _ Ne' Et Ej Bu Bj).
        * exists a. apply inv_phase; [exact I|split; [unfold is_round; rewrite P, Er; reflexivity|exact Eg]|]. intros o1 B1. cbn in B1. replace o1 with o by congruence.
          intros j tj o' Ne Ej Bj. assert (Ne' : i <> j) by auto. apply (iv_ov _ _ _ I _ _ _ _ _ _ Ne' Et Ej Bu Bj).
      + exists a. assert (N : sess a (target o) = None) by (rewrite <- (iv_sess _ _ _ I); unfold csess; rewrite Eg; reflexivity).
        apply (inv_return a0 s a i o _ _ s a I eq_refl eq_refl (run_absent o a P N) (iv_sess _ _ _ I) (iv_low _ _ _ I) (iv_inj _ _ _ I)). intros j tj _ Ej. exact (iv_ph _ _ _ I _ _ Ej).
    - destruct P as [Pr Pg]. assert (Bu : busy ti = Some o) by (unfold busy; rewrite Eph; reflexivity).
      pose proof (iv_low _ _ _ I _ _ Pg) as Lid. destruct (nth_error (c_heap s) id) as [x|] eqn:Ex; [|apply nth_error_None in Ex; lia].
      assert (Sx : sess a (target o) = Some x) by (rewrite <- (iv_sess _ _ _ I); unfold csess; rewrite Pg; exact Ex).
      pose proof (run_body o a x Pr Sx) as RB. destruct (body o x) as [[r x']|]; cbn [obind]; [|exists o; split; [exists ti; auto|exact RB]].
      destruct RB as (a' & R & Sx'). exists a'.
      apply (inv_return a0 s a i o r _ (with_heap (upd id x' (c_heap s)) s) a' I eq_refl eq_refl R).
      + intro t. unfold csess. change (creg (with_heap (upd id x' (c_heap s)) s) t) with (creg s t). change (c_heap (with_heap (upd id x' (c_heap s)) s)) with (upd id x' (c_heap s)).
        destruct (same_target_spec (target o) t) as [<-|Nt].
        * rewrite Pg, nth_error_upd_same by exact Lid. symmetry. exact Sx'.
        * rewrite (C01_other_sessions_untouched C D H B S5 HM spare o a r a' t R Nt), <- (iv_sess _ _ _ I). unfold csess.
          destruct (creg s t) as [id'|] eqn:Et'; [|reflexivity]. apply nth_error_upd_diff. intros ->. apply Nt. exact (iv_inj _ _ _ I _ _ _ Pg Et').
      + intros t id' E. cbn [with_heap c_heap]. rewrite upd_length. exact (iv_low _ _ _ I _ _ E).
      + exact (iv_inj _ _ _ I).
      + intros j tj _ Ej. exact (iv_ph _ _ _ I _ _ Ej).
    - destruct P as [Pn Pb]. assert (Bu : busy ti = Some o) by (unfold busy; rewrite Eph; reflexivity).
      destruct (run_new o a r (Some x) Pn Pb) as (a' & R & Sx). exists a'.
      set (s1 := with_heap _ _). assert (G1 : forall t, creg s1 t = if same_target (target o) t then Some (length (c_heap s)) else creg s t).
      { intros [b k]. destruct (target o) as [b0 k0] eqn:T0. unfold creg, s1, same_target. cbn [fst snd with_heap with_reg c_reg c_kg c_sg].
        destruct b0, b; cbn [Bool.eqb andb c_reg with_reg with_heap c_kg c_sg]; try reflexivity; (destruct (bytes_eqb_spec k0 k) as [->|Nk]; [apply mget_put_same|apply mget_put_diff; congruence]). }
      assert (HP : c_heap s1 = c_heap s ++ [x]) by reflexivity.
      apply (inv_return a0 s a i o r _ s1 a' I eq_refl eq_refl R).
      + intro t. unfold csess. rewrite G1, HP. destruct (same_target_spec (target o) t) as [<-|Nt].
        * rewrite nth_error_app2 by lia. rewrite Nat.sub_diag. symmetry. exact Sx.
        * rewrite (C01_other_sessions_untouched C D H B S5 HM spare o a r a' t R Nt), <- (iv_sess _ _ _ I). unfold csess.
          destruct (creg s t) as [id'|] eqn:Et'; [|reflexivity]. apply nth_error_app1. exact (iv_low _ _ _ I _ _ Et').
      + intros t id E. rewrite G1 in E. rewrite HP, app_length. cbn [length]. destruct (same_target (target o) t); [assert (id = length (c_heap s)) by congruence; lia|pose proof (iv_low _ _ _ I _ _ E); lia].
      + intros t t' id E E'. rewrite G1 in E, E'. destruct (same_target_spec (target o) t) as [<-|Nt], (same_target_spec (target o) t') as [<-|Nt']; [reflexivity| | |exact (iv_inj _ _ _ I _ _ _ E E')].
        * pose proof (iv_low _ _ _ I _ _ E'). assert (id = length (c_heap s)) by congruence. lia.
        * pose proof (iv_low _ _ _ I _ _ E). assert (id = length (c_heap s)) by congruence. lia.
      + intros j tj Ne Ej. destruct (busy tj) as [o'|] eqn:Bj.
        * assert (Ne' : i <> j) by auto. destruct (iv_ov _ _ _ I _ _ _ _ _ _ Ne' Et Ej Bu Bj) as (Q & _). unfold is_round in Q. rewrite Pn in Q. discriminate.
        * unfold busy in Bj. destruct (t_ph tj); try discriminate. exact Logic.I.
    - destruct P as [Pr Pg]. assert (Bu : busy ti = Some o) by (unfold busy; rewrite Eph; reflexivity).
      assert (Ns : sess a (target o) <> None).
      { rewrite <- (iv_sess _ _ _ I). unfold csess. destruct (creg s (target o)) as [id|] eqn:Eg; [|congruence]. apply nth_error_Some. exact (iv_low _ _ _ I _ _ Eg). }
      destruct (run_delete o a Pr Ns) as (a' & R & Sx). exists a'.
      set (s1 := with_reg _ _ _). assert (G1 : forall t, creg s1 t = if same_target (target o) t then None else creg s t).
      { intros [b k]. destruct (target o) as [b0 k0] eqn:T0. unfold creg, s1, same_target. cbn [fst snd with_reg c_reg c_kg c_sg].
        destruct b0, b; cbn [Bool.eqb andb c_reg with_reg c_kg c_sg]; try reflexivity; (destruct (bytes_eqb_spec k0 k) as [->|Nk]; [apply mget_del_same|apply mget_del_diff; congruence]). }
      apply (inv_return a0 s a i o _ _ s1 a' I eq_refl eq_refl R).
      + intro t. unfold csess. rewrite G1. destruct (same_target_spec (target o) t) as [<-|Nt]; [symmetry; exact Sx|].
        rewrite (C01_other_sessions_untouched C D H B S5 HM spare o a _ a' t R Nt). exact (iv_sess _ _ _ I t).
      + intros t id E. rewrite G1 in E. destruct (same_target (target o) t); [discriminate|]. exact (iv_low _ _ _ I _ _ E).
      + intros t t' id E E'. rewrite G1 in E, E'. destruct (same_target (target o) t), (same_target (target o) t'); try discriminate. exact (iv_inj _ _ _ I _ _ _ E E').
      + intros j tj Ne Ej. destruct (busy tj) as [o'|] eqn:Bj.
        * assert (Ne' : i <> j) by auto. destruct (iv_ov _ _ _ I _ _ _ _ _ _ Ne' Et Ej Bu Bj) as (Q & _). unfold is_round in Q. rewrite Pr, andb_false_r in Q. discriminate.
        * unfold busy in Bj. destruct (t_ph tj); try discriminate. exact Logic.I.
  Qed.

  (** *** Under the discipline every schedule is a sequential history: in the order in which the calls return, they get the
      replies and leave the sessions of that history; and the process ends only in a call that panics there too. *)
  Theorem C70_disciplined_is_sequential s a l : quiet s -> (forall t, csess s t = sess a t) -> polite l s ->
    match sched l s with
    | Ret s' => exists a', hist (calls (c_log s')) a = Ret (replies (c_log s'), a') /\ forall t, csess s' t = sess a' t
    | Panic => exists l1 i s1 o, sched l1 s = Ret s1 /\ current s1 i o /\ hist (calls (c_log s1) ++ [o]) a = Panic
    end.
  Proof.
    intros (Q1 & Q2 & Q3 & Q4) S P.
    assert (I : inv a s a).
    { constructor; auto.
      - rewrite Q4. reflexivity.
      - intros i ti E. rewrite (Q3 _ _ E). exact Logic.I.
      - intros i j ti tj o o' _ Ei _ Bi _. unfold busy in Bi. rewrite (Q3 _ _ Ei) in Bi. discriminate. }
    clear Q1 Q2 Q3 Q4 S.
    assert (W : forall l l0 s0 s a1, inv a s a1 -> sched l0 s0 = Ret s -> polite l s ->
      match sched l s with
      | Ret s' => exists a', hist (calls (c_log s')) a = Ret (replies (c_log s'), a') /\ forall t, csess s' t = sess a' t
      | Panic => exists l1 i s1 o, sched l1 s0 = Ret s1 /\ current s1 i o /\ hist (calls (c_log s1) ++ [o]) a = Panic
      end).
    { clear. assert (SA : forall l1 l2 s, sched (l1 ++ l2) s = let! s' := sched l1 s in sched l2 s').
      { induction l1 as [|i l1 IH]; intros l2 s; [reflexivity|]. cbn [app csched]. destruct (step i s); cbn [obind]; [apply IH|reflexivity]. }
      induction l as [|i l IH]; intros l0 s0 s a1 I E0 P; cbn [csched].
      - exists a1. split; [exact (iv_hist _ _ _ I)|exact (iv_sess _ _ _ I)].
      - destruct P as [G P]. pose proof (step_inv a s a1 i I G) as SI. destruct (step i s) as [s1|] eqn:E1; cbn [obind].
        + destruct SI as [a2 I2]. apply (IH (l0 ++ [i]) s0 s1 a2 I2); [|exact (P _ eq_refl)]. rewrite SA, E0. cbn [obind csched]. rewrite E1. reflexivity.
        + destruct SI as (o & Cu & R). exists l0, i, s, o. split; [exact E0|]. split; [exact Cu|]. eapply hist_snoc_panic; [exact (iv_hist _ _ _ I)|exact R]. }
    exact (W l [] s s a I eq_refl P).
  Qed.

  (** *** every goroutine's calls return in the order of its program (under any schedule) *)
  Definition pending (ti : thread) : list api := match busy ti with Some o => o :: t_prog ti | None => t_prog ti end.
  Lemma done_app i l j o r : done_by i (l ++ [(j, (o, r))]) = done_by i l ++ (if (j =? i)%nat then [o] else []).
  Proof. unfold done_by. rewrite filter_app. cbn [filter fst]. unfold calls. rewrite map_app. destruct (j =? i)%nat; reflexivity. Qed.
  Theorem C70_program_order l : forall s s', sched l s = Ret s' -> forall i ti, nth_error (c_thr s) i = Some ti ->
    exists ti', nth_error (c_thr s') i = Some ti' /\ done_by i (c_log s') ++ pending ti' = done_by i (c_log s) ++ pending ti.
  Proof.
    assert (ST : forall i s s', step i s = Ret s' -> forall j tj, nth_error (c_thr s) j = Some tj ->
      exists tj', nth_error (c_thr s') j = Some tj' /\ done_by j (c_log s') ++ pending tj' = done_by j (c_log s) ++ pending tj).
    { intros i s s' E j tj Ej. unfold cstep in E. destruct (nth_error (c_thr s) i) as [ti|] eqn:Et; [|injection E as <-; eauto].
      assert (WT : forall ph l s1, c_thr s1 = c_thr s -> c_log s1 = c_log s -> pending {| t_ph := ph; t_prog := l |} = pending ti -> with_thr i ph l s1 = s' ->
        exists tj', nth_error (c_thr s') j = Some tj' /\ done_by j (c_log s') ++ pending tj' = done_by j (c_log s) ++ pending tj).
      { intros ph l1 s1 ET EL EP <-. change (c_thr (with_thr i ph l1 s1)) with (upd i {| t_ph := ph; t_prog := l1 |} (c_thr s1)). change (c_log (with_thr i ph l1 s1)) with (c_log s1). rewrite ET, EL.
        destruct (Nat.eq_dec i j) as [->|Ne].
        - eexists. split; [apply nth_error_upd_same; apply nth_error_Some; congruence|]. rewrite EP. congruence.
        - exists tj. split; [rewrite nth_error_upd_diff by exact Ne; exact Ej|reflexivity]. }
      assert (RT : forall o r l s1, c_thr s1 = c_thr s -> c_log s1 = c_log s -> pending ti = o :: l -> return_ i o r l s1 = s' ->
        exists tj', nth_error (c_thr s') j = Some tj' /\ done_by j (c_log s') ++ pending tj' = done_by j (c_log s) ++ pending tj).
      { intros o r l1 s1 ET EL EP <-. change (c_thr (return_ i o r l1 s1)) with (upd i {| t_ph := Idle; t_prog := l1 |} (c_thr s1)). change (c_log (return_ i o r l1 s1)) with (c_log s1 ++ [(i, (o, r))]). rewrite ET, EL, done_app.
        destruct (Nat.eqb_spec i j) as [->|Ne].
        - eexists. split; [apply nth_error_upd_same; apply nth_error_Some; congruence|]. replace tj with ti by congruence. rewrite EP, <- app_assoc. reflexivity.
        - exists tj. split; [rewrite nth_error_upd_diff by exact Ne; exact Ej|rewrite app_nil_r; reflexivity]. }
      destruct (t_ph ti) as [|o|o id|o r x|o] eqn:Eph.
      - destruct (t_prog ti) as [|o l1] eqn:Ep; [injection E as <-; eauto|].
        destruct (is_new o).
        + destruct (build o) as [[r [x|]]|]; cbn [obind] in E; [|injection E as E; refine (RT _ _ _ _ eq_refl eq_refl _ E); unfold pending, busy; rewrite Eph, Ep; reflexivity|discriminate].
          destruct (writing _ s); [discriminate|]. injection E as E. refine (WT _ _ _ eq_refl eq_refl _ E). unfold pending, busy; cbn [t_ph t_prog]; rewrite Eph, Ep; reflexivity.
        + destruct (_ && _); [discriminate|]. injection E as E. refine (WT _ _ _ eq_refl eq_refl _ E). unfold pending, busy; cbn [t_ph t_prog]; rewrite Eph, Ep; reflexivity.
      - destruct (mget _ _) as [id|]; [|injection E as E; refine (RT _ _ _ _ eq_refl eq_refl _ E); unfold pending, busy; rewrite Eph; reflexivity].
        destruct (is_remove o); [destruct (writing _ s); [discriminate|]|]; injection E as E; (refine (WT _ _ _ eq_refl eq_refl _ E); unfold pending, busy; cbn [t_ph t_prog]; rewrite Eph; reflexivity).
      - destruct (nth_error (c_heap s) id) as [x|]; [|discriminate]. destruct (body o x) as [[r x']|]; cbn [obind] in E; [|discriminate]. injection E as E.
        refine (RT _ _ _ (with_heap _ s) eq_refl eq_refl _ E); unfold pending, busy; rewrite Eph; reflexivity.
      - injection E as E. refine (RT _ _ _ (with_heap _ (with_reg _ _ s)) eq_refl eq_refl _ E); unfold pending, busy; rewrite Eph; reflexivity.
      - injection E as E. refine (RT _ _ _ (with_reg _ _ s) eq_refl eq_refl _ E); unfold pending, busy; rewrite Eph; reflexivity. }
    induction l as [|i l IH]; intros s s' E j tj Ej; cbn [csched] in E; [injection E as <-; eauto|].
    destruct (step i s) as [s1|] eqn:E1; cbn [obind] in E; [|discriminate]. destruct (ST _ _ _ E1 _ _ Ej) as (t1 & N1 & D1).
    destruct (IH _ _ E _ _ N1) as (t2 & N2 & D2). exists t2. split; [exact N2|congruence].
  Qed.

  (** *** One session per goroutine, round calls only: no schedule does harm.  Every goroutine gets the replies it would get
      alone, and the process ends only if one of the goroutines, run alone, ends it. *)
  Definition replies_to (i : nat) (l : list (nat * (api * reply))) : list reply := replies (filter (fun x => (fst x =? i)%nat) l).
  Lemma step_shape i s s' : step i s = Ret s' -> s' = s \/ (i < length (c_thr s))%nat /\ exists s1 l, c_thr s1 = c_thr s /\ c_log s1 = c_log s /\
    ((exists ph, s' = with_thr i ph l s1) \/ exists o r, s' = return_ i o r l s1).
  Proof.
    intro E. unfold cstep in E. destruct (nth_error (c_thr s) i) as [t|] eqn:Et; [|left; congruence].
    assert (L : (i < length (c_thr s))%nat) by (apply nth_error_Some; congruence).
    assert (WT : forall ph l s1, c_thr s1 = c_thr s -> c_log s1 = c_log s -> Ret (with_thr i ph l s1) = Ret s' -> exists s1 l, c_thr s1 = c_thr s /\ c_log s1 = c_log s /\
      ((exists ph, s' = with_thr i ph l s1) \/ exists o r, s' = return_ i o r l s1)).
    { intros ph l s1 E1 E2 E3. exists s1, l. split; [exact E1|]. split; [exact E2|]. left. exists ph. congruence. }
    assert (RT : forall o r l s1, c_thr s1 = c_thr s -> c_log s1 = c_log s -> Ret (return_ i o r l s1) = Ret s' -> exists s1 l, c_thr s1 = c_thr s /\ c_log s1 = c_log s /\
      ((exists ph, s' = with_thr i ph l s1) \/ exists o r, s' = return_ i o r l s1)).
    { intros o r l s1 E1 E2 E3. exists s1, l. split; [exact E1|]. split; [exact E2|]. right. exists o, r. congruence. }
    destruct (t_ph t) as [|o|o id|o r x|o].
    - destruct (t_prog t) as [|o l]; [left; congruence|right; split; [exact L|]]. destruct (is_new o).
      + destruct (build o) as [[r [x|]]|]; cbn [obind] in E; [|exact (RT _ _ _ _ eq_refl eq_refl E)|discriminate]. destruct (writing _ s); [discriminate|exact (WT _ _ _ eq_refl eq_refl E)].
      + destruct (_ && _); [discriminate|exact (WT _ _ _ eq_refl eq_refl E)].
    - right; split; [exact L|]. destruct (mget _ _) as [id|]; [|exact (RT _ _ _ _ eq_refl eq_refl E)].
      destruct (is_remove o); [destruct (writing _ s); [discriminate|]|]; exact (WT _ _ _ eq_refl eq_refl E).
    - right; split; [exact L|]. destruct (nth_error (c_heap s) id) as [x|]; [|discriminate]. destruct (body o x) as [[r x']|]; cbn [obind] in E; [|discriminate].
      exact (RT _ _ _ (with_heap _ s) eq_refl eq_refl E).
    - right; split; [exact L|]. exact (RT _ _ _ (with_heap _ (with_reg _ _ s)) eq_refl eq_refl E).
    - right; split; [exact L|]. exact (RT _ _ _ (with_reg _ _ s) eq_refl eq_refl E).
  Qed.
  Lemma sched_len l : forall s s', sched l s = Ret s' -> length (c_thr s') = length (c_thr s).
  Proof.
    induction l as [|i l IH]; intros s s' E; cbn [csched] in E; [injection E as <-; reflexivity|].
    destruct (step i s) as [s1|] eqn:E1; cbn [obind] in E; [|discriminate]. rewrite (IH _ _ E).
    destruct (step_shape _ _ _ E1) as [->|(_ & s2 & l1 & ET & _ & [[ph ->]|(o & r & ->)])]; [reflexivity| |]; cbn; rewrite upd_length, ET; reflexivity.
  Qed.
  Lemma sched_app l1 l2 : forall s, sched (l1 ++ l2) s = let! s' := sched l1 s in sched l2 s'.
  Proof. induction l1 as [|i l1 IH]; intro s; [reflexivity|]. cbn [app csched]. destruct (step i s); cbn [obind]; [apply IH|reflexivity]. Qed.
  Lemma polite_app l1 l2 : forall s, polite (l1 ++ l2) s -> polite l1 s.
  Proof. induction l1 as [|i l1 IH]; intros s P; [exact Logic.I|]. destruct P as [G P]. split; [exact G|]. intros s' E. exact (IH _ (P _ E)). Qed.

  (** goroutine i makes only round calls, all on session T i *)
  Definition own_session (s : cstate) (T : nat -> bool * bytes) : Prop :=
    (forall i j, i <> j -> (i < length (c_thr s))%nat -> (j < length (c_thr s))%nat -> T i <> T j) /\
    forall i ti o, nth_error (c_thr s) i = Some ti -> In o (t_prog ti) -> is_round o = true /\ target o = T i.

  Lemma pending_sub s T l s' i ti : quiet s -> own_session s T -> sched l s = Ret s' -> nth_error (c_thr s') i = Some ti ->
    (i < length (c_thr s))%nat /\ (forall o, In o (pending ti) -> is_round o = true /\ target o = T i) /\
    (forall o, In o (done_by i (c_log s')) -> is_round o = true /\ target o = T i).
  Proof.
    intros (_ & _ & Q3 & Q4) [_ O] E Et. assert (Li : (i < length (c_thr s))%nat) by (rewrite <- (sched_len _ _ _ E); apply nth_error_Some; congruence).
    split; [exact Li|]. destruct (nth_error (c_thr s) i) as [t0|] eqn:E0; [|apply nth_error_None in E0; lia].
    destruct (C70_program_order l s s' E i t0 E0) as (t1 & E1 & Dq). rewrite Q4 in Dq. cbn in Dq. replace t1 with ti in Dq by congruence.
    assert (P0 : pending t0 = t_prog t0) by (unfold pending, busy; rewrite (Q3 _ _ E0); reflexivity). rewrite P0 in Dq.
    split; intros o Hin; apply (O i t0 o E0); rewrite <- Dq; apply in_or_app; auto.
  Qed.
  Lemma own_polite s T l : quiet s -> own_session s T -> forall l0 s0, sched l0 s = Ret s0 -> polite l s0.
  Proof.
    intros Q O. induction l as [|i l IH]; intros l0 s0 E; [exact Logic.I|]. split.
    - intros ti o l1 Et Ei Ep j tj o' Ne Ej Bj. destruct (pending_sub s T l0 s0 i ti Q O E Et) as (Li & Pi & _). destruct (pending_sub s T l0 s0 j tj Q O E Ej) as (Lj & Pj & _).
      destruct (Pi o) as [R1 T1]. { unfold pending, busy. rewrite Ei, Ep. left. reflexivity. }
      destruct (Pj o') as [R2 T2]. { unfold pending. rewrite Bj. left. reflexivity. }
      split; [exact R1|]. split; [exact R2|]. rewrite T1, T2. destruct O as [OT _]. apply OT; auto.
    - intros s' E'. apply (IH (l0 ++ [i])). rewrite sched_app, E. cbn [obind csched]. rewrite E'. reflexivity.
  Qed.
  (** with one session per goroutine, the calls on that session are the goroutine's calls *)
  Lemma log_sep s T l s' i : quiet s -> own_session s T -> sched l s = Ret s' -> (i < length (c_thr s))%nat ->
    on (T i) (calls (c_log s')) = done_by i (c_log s') /\ replies_on (T i) (calls (c_log s')) (replies (c_log s')) = replies_to i (c_log s').
  Proof.
    intros Q O E Li.
    assert (A : forall x, In x (c_log s') -> (fst x < length (c_thr s))%nat /\ target (fst (snd x)) = T (fst x)).
    { intros [k [o r]] Hin. cbn [fst snd].
      assert (Lk : (k < length (c_thr s))%nat).
      { revert s' E k o r Hin. clear Li i. induction l as [|y l IH] using rev_ind; intros s' E k o r Hin.
        - injection E as <-. destruct Q as (_ & _ & _ & Q4). rewrite Q4 in Hin. destruct Hin.
        - rewrite sched_app in E. destruct (sched l s) as [s1|] eqn:E1; cbn [obind csched] in E; [|discriminate].
          assert (E2 : step y s1 = Ret s') by (destruct (step y s1); cbn [obind] in E; congruence). clear E.
          assert (W : In (k, (o, r)) (c_log s1) \/ k = y /\ (y < length (c_thr s1))%nat).
          { destruct (step_shape _ _ _ E2) as [->|(Ly & s2 & l1 & _ & EL & [[ph ->]|(o' & r' & ->)])]; [auto| |]; cbn in Hin; rewrite EL in Hin; [auto|].
            apply in_app_or in Hin. destruct Hin as [Hin|[Hin|[]]]; [auto|right; split; [congruence|exact Ly]]. }
          destruct W as [W|[-> W]]; [exact (IH _ eq_refl _ _ _ W)|]. rewrite (sched_len _ _ _ E1) in W. exact W. }
      split; [exact Lk|]. destruct (nth_error (c_thr s') k) as [tk|] eqn:Ek; [|apply nth_error_None in Ek; rewrite (sched_len _ _ _ E) in Ek; lia].
      apply (pending_sub s T l s' k tk Q O E Ek). unfold done_by, calls. apply in_map_iff. exists (k, (o, r)). split; [reflexivity|]. apply filter_In. split; [exact Hin|apply Nat.eqb_refl]. }
    destruct O as [OT _].
    assert (F : forall x, In x (c_log s') -> same_target (target (fst (snd x))) (T i) = (fst x =? i)%nat).
    { intros x Hin. destruct (A x Hin) as [L1 T1]. rewrite T1. destruct (Nat.eqb_spec (fst x) i) as [->|Ne].
      - destruct (same_target_spec (T i) (T i)); congruence.
      - destruct (same_target_spec (T (fst x)) (T i)) as [Te|]; [|reflexivity]. exfalso. exact (OT _ _ Ne L1 Li Te). }
    unfold on, replies_on, done_by, replies_to, calls, replies. clear A E. induction (c_log s') as [|x g IH]; [split; reflexivity|].
    destruct (IH (fun y Hy => F y (or_intror Hy))) as [H1 H2]. cbn [map filter combine fst]. rewrite (F x (or_introl eq_refl)).
    destruct (fst x =? i)%nat; cbn [map]; [split; [rewrite H1|cbn [snd]; rewrite H2]; reflexivity|split; [exact H1|exact H2]].
  Qed.

  Theorem C70_one_session_each s a T l : quiet s -> (forall t, csess s t = sess a t) -> own_session s T ->
    match sched l s with
    | Ret s' => forall i ti, nth_error (c_thr s) i = Some ti ->
        exists a' ti', nth_error (c_thr s') i = Some ti' /\ hist (done_by i (c_log s')) a = Ret (replies_to i (c_log s'), a') /\
          sess a' (T i) = csess s' (T i) /\ done_by i (c_log s') ++ pending ti' = t_prog ti
    | Panic => exists i ti done o rest, nth_error (c_thr s) i = Some ti /\ t_prog ti = done ++ o :: rest /\ hist (done ++ [o]) a = Panic
    end.
  Proof.
    intros Q Sa O. pose proof (own_polite s T l Q O [] s eq_refl) as P. pose proof (C70_disciplined_is_sequential s a l Q Sa P) as S.
    destruct (sched l s) as [s'|] eqn:E.
    - intros i ti Ei. destruct S as (a' & Hh & Ss). assert (Li : (i < length (c_thr s))%nat) by (apply nth_error_Some; congruence).
      destruct (log_sep s T l s' i Q O E Li) as [L1 L2].
      destruct (C01_noninterference C D H B S5 HM spare (T i) _ a a _ _ eq_refl Hh) as (a'' & Hh' & S''). rewrite L1, L2 in Hh'.
      destruct (C70_program_order l s s' E i ti Ei) as (ti' & Ei' & D'). exists a'', ti'. split; [exact Ei'|]. split; [exact Hh'|]. split; [rewrite S''; symmetry; apply Ss|].
      destruct Q as (_ & _ & Q3 & Q4). rewrite D', Q4. unfold pending, busy. rewrite (Q3 _ _ Ei). reflexivity.
    - destruct S as (l1 & i & s1 & o & E1 & (ti1 & Et1 & Cu) & Hp).
      pose proof (C70_disciplined_is_sequential s a l1 Q Sa (own_polite s T l1 Q O [] s eq_refl)) as S1. rewrite E1 in S1. destruct S1 as (a1 & H1 & Ss1).
      destruct (pending_sub s T l1 s1 i ti1 Q O E1 Et1) as (Li & Pi & _).
      assert (Hin : exists rest, pending ti1 = o :: rest).
      { unfold pending. destruct Cu as [Cu|[Ci (l2 & Cp)]]; [rewrite Cu; eauto|]. unfold busy. rewrite Ci, Cp. eauto. }
      destruct Hin as (rest & Pe). destruct (Pi o ltac:(rewrite Pe; left; reflexivity)) as [_ To].
      destruct (nth_error (c_thr s) i) as [ti|] eqn:Ei; [|apply nth_error_None in Ei; lia].
      destruct (C70_program_order l1 s s1 E1 i ti Ei) as (ti1' & Et1' & D'). replace ti1' with ti1 in D' by congruence.
      destruct Q as (Q1 & Q2 & Q3 & Q4). exists i, ti, (done_by i (c_log s1)), o, rest. split; [exact Ei|]. split.
      { rewrite <- Pe, D', Q4. unfold pending, busy. rewrite (Q3 _ _ Ei). reflexivity. }
      destruct (log_sep s T l1 s1 i (conj Q1 (conj Q2 (conj Q3 Q4))) O E1 Li) as [L1 L2].
      destruct (C01_noninterference C D H B S5 HM spare (T i) _ a a _ _ eq_refl H1) as (a'' & Hh' & S''). rewrite L1 in Hh'.
      eapply hist_snoc_panic; [exact Hh'|].
      assert (R1 : run o a1 = Panic).
      { destruct (run o a1) as [[r a2]|] eqn:R1; [|reflexivity]. pose proof (hist_snoc _ _ _ _ _ _ _ H1 R1). congruence. }
      pose proof (run_local C D H B S5 HM spare o a1 a'') as RL. rewrite To in RL. specialize (RL (eq_sym S'')). rewrite R1 in RL. destruct (run o a'') as [[? ?]|]; [contradiction|reflexivity].
  Qed.

  (** *** Refuted without the discipline: while one goroutine writes to a registry, another that starts any call on that
      registry (on whatever key) ends the process -- a New that would succeed, or, unless the registry is empty, any other call. *)
  Theorem C70_overlap_dies_refuted s i j ti tj o l b : i <> j -> nth_error (c_thr s) i = Some ti -> writes b ti = true ->
    nth_error (c_thr s) j = Some tj -> t_ph tj = Idle -> t_prog tj = o :: l -> fst (target o) = b ->
    (if is_new o then exists r x, build o = Ret (r, Some x) else c_reg b s <> []) -> step j s = Panic.
  Proof.
    intros Ne Ei W Ej Eph Ep Et Hc. assert (WR : writing b s = true) by (apply existsb_exists; exists ti; split; [eapply nth_error_In; exact Ei|exact W]).
    unfold cstep. rewrite Ej, Eph, Ep, Et. destruct (is_new o).
    - destruct Hc as (r & x & ->). cbn [obind]. rewrite WR. reflexivity.
    - rewrite WR, andb_true_r. destruct (c_reg b s) as [|y g]; [congruence|]. reflexivity.
  Qed.
  (** so two constructors for different keys, each of which succeeds, are fine one after the other and fatal together *)
  Theorem C70_two_news_refuted s i j ti tj o1 o2 l1 l2 r1 x1 r2 x2 : i <> j -> quiet s ->
    nth_error (c_thr s) i = Some ti -> t_prog ti = o1 :: l1 -> nth_error (c_thr s) j = Some tj -> t_prog tj = o2 :: l2 ->
    is_new o1 = true -> is_new o2 = true -> target o1 <> target o2 -> fst (target o1) = fst (target o2) ->
    build o1 = Ret (r1, Some x1) -> build o2 = Ret (r2, Some x2) ->
    sched [i; j] s = Panic /\ exists s', sched [i; i; j; j] s = Ret s' /\ c_log s' = [(i, (o1, r1)); (j, (o2, r2))].
  Proof.
    intros Ne (Q1 & Q2 & Q3 & Q4) Ei Pi Ej Pj N1 N2 Nt Ef B1 B2.
    assert (NW : forall b, writing b s = false).
    { intro b. destruct (writing b s) eqn:W; [|reflexivity]. apply existsb_exists in W. destruct W as (t & Hin & W). apply In_nth_error in Hin. destruct Hin as (k & Ek). unfold writes in W. rewrite (Q3 _ _ Ek) in W. discriminate. }
    assert (S1 : step i s = Ret (with_thr i (NewW o1 r1 x1) l1 s)) by (unfold cstep; rewrite Ei, (Q3 _ _ Ei), Pi, N1, B1; cbn [obind]; rewrite NW; reflexivity).
    set (s1 := with_thr i (NewW o1 r1 x1) l1 s) in *.
    assert (Ei1 : nth_error (c_thr s1) i = Some {| t_ph := NewW o1 r1 x1; t_prog := l1 |}) by (apply nth_error_upd_same, nth_error_Some; congruence).
    assert (Ej1 : nth_error (c_thr s1) j = Some tj) by (unfold s1; cbn; rewrite nth_error_upd_diff by exact Ne; exact Ej).
    split.
    { cbn [csched]. rewrite S1. cbn [obind]. rewrite (C70_overlap_dies_refuted s1 i j _ tj o2 l2 (fst (target o1)) Ne Ei1); auto; [unfold writes; cbn; apply Bool.eqb_reflx|exact (Q3 _ _ Ej)|]. rewrite N2. eauto. }
    set (s2 := return_ i o1 r1 l1 (with_heap (c_heap s1 ++ [x1]) (with_reg (fst (target o1)) (mput (snd (target o1)) (length (c_heap s1)) (c_reg (fst (target o1)) s1)) s1))).
    assert (S2 : step i s1 = Ret s2) by (unfold cstep; rewrite Ei1; reflexivity).
    assert (T2 : c_thr s2 = upd i {| t_ph := Idle; t_prog := l1 |} (c_thr s1)) by reflexivity.
    assert (Ej2 : nth_error (c_thr s2) j = Some tj) by (rewrite T2, nth_error_upd_diff by exact Ne; exact Ej1).
    assert (NW2 : forall b, writing b s2 = false).
    { intro b. destruct (writing b s2) eqn:W; [|reflexivity]. apply existsb_exists in W. destruct W as (t & Hin & W). apply In_nth_error in Hin. destruct Hin as (k & Ek). rewrite T2 in Ek.
      apply upd_cases in Ek. destruct Ek as [[-> ->]|[Nk Ek]]; [discriminate|]. apply upd_cases in Ek. destruct Ek as [[-> _]|[_ Ek]]; [congruence|]. unfold writes in W. rewrite (Q3 _ _ Ek) in W. discriminate. }
    assert (S3 : step j s2 = Ret (with_thr j (NewW o2 r2 x2) l2 s2)) by (unfold cstep; rewrite Ej2, (Q3 _ _ Ej), Pj, N2, B2; cbn [obind]; rewrite NW2; reflexivity).
    assert (Ej3 : nth_error (c_thr (with_thr j (NewW o2 r2 x2) l2 s2)) j = Some {| t_ph := NewW o2 r2 x2; t_prog := l2 |}) by (apply nth_error_upd_same, nth_error_Some; congruence).
    eexists. cbn [csched]. rewrite S1. cbn [obind]. rewrite S2. cbn [obind]. rewrite S3. cbn [obind]. unfold cstep at 1. rewrite Ej3. cbn [t_ph obind]. split; [reflexivity|].
    cbn. rewrite Q4. reflexivity.
  Qed.
End P.

(** ** Examples *)
Definition c_new1 : api := ANewK (str "a") 0 2 (str "1,2") (str "07").
Definition c_new2 : api := ANewK (str "b") 1 2 (str "1,2") (str "08").
Definition c_start (progs : list (list api)) : cstate :=
  {| c_kg := []; c_sg := []; c_heap := []; c_thr := map (fun l => {| t_ph := Idle; t_prog := l |}) progs; c_log := [] |}.
(** sessions "a" and "b" exist *)
Definition c_two (progs : list (list api)) : cstate :=
  {| c_kg := [(str "a", 0%nat); (str "b", 1%nat)]; c_sg := []; c_heap := match kg_new 0 2 [str "1"; str "2"] (str "07"), kg_new 1 2 [str "1"; str "2"] (str "08") with Ret (_, Some p), Ret (_, Some q) => [SessK p; SessK q] | _, _ => [] end;
     c_thr := map (fun l => {| t_ph := Idle; t_prog := l |}) progs; c_log := [] |}.
Definition c_fin1 : api := AK (str "a") (KFin 1).
Definition c_acc2 : api := AK (str "b") (KAcc 1 0 (str "!")).
Theorem C70_example C D H B S5 HM spare :
  quiet (c_start [[c_new1]; [c_new2]]) /\ csched C D H B S5 HM spare [0; 1]%nat (c_start [[c_new1]; [c_new2]]) = Panic /\
  (match csched C D H B S5 HM spare [0; 0; 1; 1]%nat (c_start [[c_new1]; [c_new2]]) with Ret s => map (fun x => reply_ok (snd (snd x))) (c_log s) | Panic => [] end) = [true; true] /\
  csched C D H B S5 HM spare [0; 1]%nat (c_two [[ANewK (str "c") 0 2 (str "1,2") (str "07")]; [c_fin1]]) = Panic /\
  csched C D H B S5 HM spare [0; 0; 1]%nat (c_two [[ARemK (str "a")]; [c_acc2]]) = Panic /\
  (* one session each: any schedule is fine *)
  quiet (c_two [[c_fin1; c_fin1]; [c_acc2]]) /\ own_session (c_two [[c_fin1; c_fin1]; [c_acc2]]) (fun i => (false, if (i =? 0)%nat then str "a" else str "b")) /\
  (match csched C D H B S5 HM spare [0; 1; 1; 0; 1; 0; 0; 0; 0]%nat (c_two [[c_fin1; c_fin1]; [c_acc2]]) with Ret s => map fst (c_log s) | Panic => [] end) = [1; 0; 0]%nat.
Proof.
  assert (Q1 : forall p, quiet (c_start p)).
  { intro p. split; [intros [[|] k] id E; discriminate E|]. split; [intros [[|] k] t' id E; discriminate E|]. split; [|reflexivity].
    intros i ti E. cbn in E. apply nth_error_In, in_map_iff in E. destruct E as (x & <- & _). reflexivity. }
  assert (Q2 : forall p, quiet (c_two p)).
  { intro p. assert (A : forall t id, creg (c_two p) t = Some id -> t = (false, str "a") /\ id = 0%nat \/ t = (false, str "b") /\ id = 1%nat).
    { intros [[|] k] id E; [discriminate E|]. unfold creg, c_two in E. cbn [fst snd c_reg c_kg mget] in E.
      destruct (bytes_eqb_spec k (str "a")) as [->|]; [left; split; congruence|]. destruct (bytes_eqb_spec k (str "b")) as [->|]; [right; split; congruence|discriminate]. }
    split; [intros t id E; destruct (A _ _ E) as [[_ ->]|[_ ->]]; vm_compute; lia|].
    split; [intros t t' id E E'; destruct (A _ _ E) as [[-> ->]|[-> ->]], (A _ _ E') as [[-> ?]|[-> ?]]; congruence|]. split; [|reflexivity].
    intros i ti E. cbn in E. apply nth_error_In, in_map_iff in E. destruct E as (x & <- & _). reflexivity. }
  split; [apply Q1|]. split; [reflexivity|]. split; [reflexivity|]. split; [reflexivity|]. split; [reflexivity|]. split; [apply Q2|]. split; [|reflexivity].
  split.
  - intros i j Ne Li Lj. cbn in Li, Lj. destruct i as [|[|i]], j as [|[|j]]; try lia; cbn; intro E; discriminate E.
  - intros i ti o E Hin. destruct i as [|[|i]]; cbn in E; [| |destruct i; discriminate E];
      (assert (Q : ti = {| t_ph := Idle; t_prog := [c_fin1; c_fin1] |} \/ ti = {| t_ph := Idle; t_prog := [c_acc2] |}) by (injection E as <-; auto));
      injection E as <-; cbn in Hin; repeat (destruct Hin as [<-|Hin]; [split; reflexivity|]); destruct Hin.
Qed.
