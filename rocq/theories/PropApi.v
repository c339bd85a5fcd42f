(** PropApi.v -- C01-C03: sessions under different keys are independent, unknown keys fail cleanly, a session lives from a
    successful New to the next Remove. *)
From Verif Require Import Base BigInt Text Wire Messages PartyID Curve Save Keygen KeygenAdv RangeProofs Ckd Onsign OnsignHist ToyCurve PropSign Api.

(** ** Specification *)
(** which registry (true = signing) and key a call names *)
Definition target (o : api) : bool * bytes :=
  match o with
  | ANewK key _ _ _ _ | ARemK key | AK key _ => (false, key)
  | ANewS key _ _ _ _ _ _ _ | ARemS key | AS key _ => (true, key)
  end.
Definition is_new (o : api) : bool := match o with ANewK _ _ _ _ _ | ANewS _ _ _ _ _ _ _ _ => true | _ => false end.
Definition is_remove (o : api) : bool := match o with ARemK _ | ARemS _ => true | _ => false end.
(** the session stored under a target *)
Inductive session := SessK (p : kparty) | SessS (p : sparty).
Definition sess (s : api_state) (t : bool * bytes) : option session :=
  if fst t then option_map SessS (mget (snd t) (a_sg s)) else option_map SessK (mget (snd t) (a_kg s)).
Definition live (s : api_state) (t : bool * bytes) : Prop := sess s t <> None.
Definition reply_ok (r : reply) : bool := match r with RRes r => r_ok r | RBool b => b end.
Definition same_target (t u : bool * bytes) : bool := Bool.eqb (fst t) (fst u) && bytes_eqb (snd t) (snd u).
(** the calls of a history that name t, and their replies *)
Definition on (t : bool * bytes) (l : list api) : list api := filter (fun o => same_target (target o) t) l.
Definition replies_on (t : bool * bytes) (l : list api) (rs : list reply) : list reply :=
  map snd (filter (fun p => same_target (target (fst p)) t) (combine l rs)).
(** the last successful New or Remove of t in a history with its replies was a New *)
Fixpoint last_new (t : bool * bytes) (h : list (api * reply)) (init : bool) : bool :=
  match h with
  | [] => init
  | (o, r) :: h' => last_new t h' (if same_target (target o) t && reply_ok r then (if is_new o then true else if is_remove o then false else init) else init)
  end.

Lemma same_target_spec t u : reflect (t = u) (same_target t u).
Proof.
  destruct t as [a k], u as [b k']. unfold same_target; cbn [fst snd].
  destruct a, b; cbn [Bool.eqb andb]; try (constructor; congruence);
    (destruct (bytes_eqb_spec k k'); constructor; congruence).
Qed.

Section P.
  Variables (C : curve) (D : edlib) (H B S5 : bytes -> bytes) (HM : bytes -> bytes -> bytes) (spare : bytes -> bytes).
  Notation run := (api_run C D H B S5 HM spare).
  Notation hist := (api_hist C D H B S5 HM spare).

  (** *** C01 *)
  (** one call changes at most the session it names *)
  Theorem C01_other_sessions_untouched o s r s' t : run o s = Ret (r, s') -> target o <> t -> sess s' t = sess s t.
  Proof.
    intros E T. destruct t as [b k']. 
    assert (K : forall A (m : gmap A) k p, (b = false -> k <> k') -> b = false -> mget k' (mput k p m) = mget k' m).
    { intros A m k p Hk Hb. apply mget_put_diff. specialize (Hk Hb). congruence. }
    assert (K' : forall A (m : gmap A) k p, (b = true -> k <> k') -> b = true -> mget k' (mput k p m) = mget k' m).
    { intros A m k p Hk Hb. apply mget_put_diff. specialize (Hk Hb). congruence. }
    assert (R : forall A (m : gmap A) k, (b = false -> k <> k') -> b = false -> mget k' (mdel k m) = mget k' m).
    { intros A m k Hk Hb. apply mget_del_diff. specialize (Hk Hb). congruence. }
    assert (R' : forall A (m : gmap A) k, (b = true -> k <> k') -> b = true -> mget k' (mdel k m) = mget k' m).
    { intros A m k Hk Hb. apply mget_del_diff. specialize (Hk Hb). congruence. }
    destruct o as [key i n pids root|key|key o|key i n pids msg kd rf path|key|key o]; cbn [target] in T; cbn [api_run] in E; unfold sess; cbn [fst snd].
    - destruct (kg_new _ _ _ _) as [[r0 [p|]]|]; cbn [obind] in E; inversion E; subst; cbn [a_kg a_sg]; destruct b; auto.
      rewrite K; auto. intros _ ->; congruence.
    - destruct (mget key (a_kg s)); inversion E; subst; cbn [a_kg a_sg]; destruct b; auto. rewrite R; auto. intros _ ->; congruence.
    - destruct (mget key (a_kg s)) as [p|]; [|inversion E; subst; auto]. destruct (kop_run _ _ _ _) as [[r0 p']|]; cbn [obind] in E; inversion E; subst; cbn [a_kg a_sg]; destruct b; auto.
      rewrite K; auto. intros _ ->; congruence.
    - destruct (sg_new _ _ _ _ _ _ _ _ _ _) as [[r0 [p|]]|]; cbn [obind] in E; inversion E; subst; cbn [a_kg a_sg]; destruct b; auto.
      rewrite K'; auto. intros _ ->; congruence.
    - destruct (mget key (a_sg s)); inversion E; subst; cbn [a_kg a_sg]; destruct b; auto. rewrite R'; auto. intros _ ->; congruence.
    - destruct (mget key (a_sg s)) as [p|]; [|inversion E; subst; auto]. destruct (sop_run _ _ _ _ _ _) as [[r0 p']|]; cbn [obind] in E; inversion E; subst; cbn [a_kg a_sg]; destruct b; auto.
      rewrite K'; auto. intros _ ->; congruence.
  Qed.

  (** a call depends on the state only through the session it names *)
  Lemma run_local o s1 s2 : sess s1 (target o) = sess s2 (target o) ->
    match run o s1, run o s2 with
    | Ret (r1, s1'), Ret (r2, s2') => r1 = r2 /\ sess s1' (target o) = sess s2' (target o)
    | Panic, Panic => True
    | _, _ => False end.
  Proof.
    assert (IK : forall a b : option kparty, option_map SessK a = option_map SessK b -> a = b) by (intros [|] [|]; cbn; congruence).
    assert (IS : forall a b : option sparty, option_map SessS a = option_map SessS b -> a = b) by (intros [|] [|]; cbn; congruence).
    destruct o as [key i n pids root|key|key o|key i n pids msg kd rf path|key|key o]; cbn [target api_run]; unfold sess; cbn [fst snd]; intro E.
    - destruct (kg_new _ _ _ _) as [[r0 [p|]]|]; cbn [obind]; auto. split; auto. cbn. rewrite !bytes_eqb_refl. reflexivity.
    - apply IK in E. rewrite E. destruct (mget key (a_kg s2)) eqn:E2; split; auto; cbn [a_kg]; rewrite ?mget_del_same; rewrite ?E, ?E2; auto.
    - apply IK in E. rewrite E. destruct (mget key (a_kg s2)) eqn:E2; [|split; auto; rewrite E, E2; auto].
      destruct (kop_run _ _ _ _) as [[r0 p']|]; cbn [obind]; auto. split; auto. cbn [a_kg]. rewrite !mget_put_same. reflexivity.
    - destruct (sg_new _ _ _ _ _ _ _ _ _ _) as [[r0 [p|]]|]; cbn [obind]; auto. split; auto. cbn. rewrite !bytes_eqb_refl. reflexivity.
    - apply IS in E. rewrite E. destruct (mget key (a_sg s2)) eqn:E2; split; auto; cbn [a_sg]; rewrite ?mget_del_same; rewrite ?E, ?E2; auto.
    - apply IS in E. rewrite E. destruct (mget key (a_sg s2)) eqn:E2; [|split; auto; rewrite E, E2; auto].
      destruct (sop_run _ _ _ _ _ _) as [[r0 p']|]; cbn [obind]; auto. split; auto. cbn [a_sg]. rewrite !mget_put_same. reflexivity.
  Qed.

  (** Noninterference: in any history, the calls on one session get exactly the replies, and leave exactly the session,
      that they would if no other call had been made. *)
  Theorem C01_noninterference t l : forall s1 s2 rs s', sess s1 t = sess s2 t -> hist l s1 = Ret (rs, s') ->
    exists s'', hist (on t l) s2 = Ret (replies_on t l rs, s'') /\ sess s'' t = sess s' t.
  Proof.
    induction l as [|o l IH]; intros s1 s2 rs s' E Hh; cbn [api_hist] in Hh.
    - inversion Hh; subst. exists s2. split; [reflexivity|auto].
    - destruct (run o s1) as [[r s1']|] eqn:R1; [|discriminate]. cbn [obind] in Hh.
      destruct (hist l s1') as [[rs' s2']|] eqn:R2; [|discriminate]. cbn [obind] in Hh. inversion Hh; subst. clear Hh.
      unfold on, replies_on; cbn [filter combine fst]. destruct (same_target_spec (target o) t) as [<-|Ht].
      + pose proof (run_local o s1 s2 E) as RL. rewrite R1 in RL. destruct (run o s2) as [[r2 s3]|] eqn:R3; [|contradiction]. destruct RL as [<- E'].
        destruct (IH _ s3 _ _ E' R2) as (s'' & Hh & E''). exists s''. split; [|exact E''].
        cbn [api_hist map snd]. rewrite R3. cbn [obind]. fold (on (target o) l). rewrite Hh. reflexivity.
      + destruct (IH s1' s2 _ _ ltac:(rewrite (C01_other_sessions_untouched _ _ _ _ t R1 Ht); exact E) R2) as (s'' & Hh & E'').
        exists s''. split; [exact Hh|exact E''].
  Qed.

  (** *** C02 *)
  Theorem C02_unknown_key o s : ~ live s (target o) -> is_new o = false ->
    run o s = Ret (if is_remove o then RBool false else RRes (fail ENotFound), s) /\
    (is_remove o = false -> reply_ok (RRes (fail ENotFound)) = false /\ not_found_text o <> []).
  Proof.
    unfold live, sess. intros L N.
    assert (NN : ~ (sess s (target o) <> None) -> sess s (target o) = None) by (destruct (sess s (target o)); intuition congruence).
    specialize (NN L). unfold sess in NN.
    destruct o as [key i n pids root|key|key o|key i n pids msg kd rf path|key|key o]; cbn [target fst snd is_new is_remove api_run] in *; try discriminate.
    - destruct (mget key (a_kg s)); [discriminate|]. split; [reflexivity|discriminate].
    - destruct (mget key (a_kg s)); [discriminate|]. split; [reflexivity|]. intros _. split; [reflexivity|discriminate].
    - destruct (mget key (a_sg s)); [discriminate|]. split; [reflexivity|discriminate].
    - destruct (mget key (a_sg s)); [discriminate|]. split; [reflexivity|]. intros _. split; [reflexivity|]. 
      destruct o; cbn [not_found_text]; try discriminate. destruct r as [|[|[|r]]]; discriminate.
  Qed.

  (** *** C03 *)
  Lemma kg_new_some i n pids root r p : kg_new i n pids root = Ret (r, p) -> r_ok r = true <-> p <> None.
  Proof.
    unfold kg_new. intro E. destruct (make_ids _ _); [|discriminate]. cbn [obind] in E. destruct (idx _ _); [|discriminate]. cbn [obind] in E.
    destruct (hex_dec root); inversion E; subst; cbn; split; congruence.
  Qed.
  Lemma sg_new_some i n pids msg kd rf path r p : sg_new C HM spare i n pids msg kd rf path = Ret (r, p) -> r_ok r = true <-> p <> None.
  Proof.
    assert (X : forall e, r_ok (fail e) = true <-> (None : option sparty) <> None) by (intro e; cbn; split; congruence).
    unfold sg_new. intro E. 
    destruct (make_ids _ _); cbn [obind] in E; [|discriminate E]. destruct (idx _ _); cbn [obind] in E; [|discriminate E].
    destruct (b64_dec kd); [|apply Ret_pair_inj in E; destruct E as [<- <-]; apply X].
    destruct (save_dec C _) as [keys|]; [|apply Ret_pair_inj in E; destruct E as [<- <-]; apply X].
    destruct (negb _); [apply Ret_pair_inj in E; destruct E as [<- <-]; apply X|].
    do 7 (match type of E with obind ?m _ = _ => destruct m; cbn [obind] in E; [|discriminate E] end).
    match type of E with match ?o with _ => _ end = _ => destruct o; [|apply Ret_pair_inj in E; destruct E as [<- <-]; apply X] end.
    match type of E with obind ?m _ = _ => destruct m; cbn [obind] in E; [|discriminate E] end.
    destruct (hex_dec rf); [|apply Ret_pair_inj in E; destruct E as [<- <-]; apply X].
    match type of E with obind ?m _ = _ => destruct m as [[? ?]|]; cbn [obind] in E; [|discriminate E] end.
    match type of E with obind ?m _ = _ => destruct m as [[[?|?] ?]|]; cbn [obind] in E; [| |discriminate E] end.
    { apply Ret_pair_inj in E; destruct E as [<- <-]; apply X. }
    destruct (hex_dec msg); [|apply Ret_pair_inj in E; destruct E as [<- <-]; apply X].
    apply Ret_pair_inj in E; destruct E as [<- <-]. cbn. split; congruence.
  Qed.
  Lemma run_live o s r s' : run o s = Ret (r, s') ->
    (live s' (target o) <-> (if reply_ok r then (if is_new o then True else if is_remove o then False else live s (target o)) else live s (target o))).
  Proof.
    intro E. unfold live, sess.
    destruct o as [key i n pids root|key|key o|key i n pids msg kd rf path|key|key o]; cbn [target fst snd is_new is_remove api_run] in *.
    - destruct (kg_new _ _ _ _) as [[r0 p]|] eqn:N; cbn [obind] in E; [|discriminate]. pose proof (kg_new_some _ _ _ _ _ _ N) as Q.
      inversion E; subst. cbn [reply_ok]. destruct p as [p|].
      + rewrite (proj2 Q) by discriminate. cbn [a_kg]. rewrite mget_put_same. cbn. split; [auto|congruence].
      + destruct (r_ok r0); [exfalso; apply Q; auto|]. tauto.
    - destruct (mget key (a_kg s)) eqn:M; inversion E; subst; cbn [reply_ok]; cbn [a_kg]; rewrite ?mget_del_same, ?M; cbn; intuition congruence.
    - destruct (mget key (a_kg s)) eqn:M; [|inversion E; subst; cbn; rewrite M; cbn; tauto].
      destruct (kop_run _ _ _ _) as [[r0 p']|]; cbn [obind] in E; [|discriminate]. inversion E; subst. cbn [a_kg reply_ok]. rewrite mget_put_same. cbn.
      destruct (r_ok r0); intuition congruence.
    - destruct (sg_new _ _ _ _ _ _ _ _ _ _) as [[r0 p]|] eqn:N; cbn [obind] in E; [|discriminate]. pose proof (sg_new_some _ _ _ _ _ _ _ _ _ N) as Q.
      inversion E; subst. cbn [reply_ok]. destruct p as [p|].
      + rewrite (proj2 Q) by discriminate. cbn [a_sg]. rewrite mget_put_same. cbn. split; [auto|congruence].
      + destruct (r_ok r0); [exfalso; apply Q; auto|]. tauto.
    - destruct (mget key (a_sg s)) eqn:M; inversion E; subst; cbn [reply_ok]; cbn [a_sg]; rewrite ?mget_del_same, ?M; cbn; intuition congruence.
    - destruct (mget key (a_sg s)) eqn:M; [|inversion E; subst; cbn; rewrite M; cbn; tauto].
      destruct (sop_run _ _ _ _ _ _) as [[r0 p']|]; cbn [obind] in E; [|discriminate]. inversion E; subst. cbn [a_sg reply_ok]. rewrite mget_put_same. cbn.
      destruct (r_ok r0); intuition congruence.
  Qed.

  Theorem C03_live_iff_last_new t l rs s' : hist l api_empty = Ret (rs, s') -> live s' t <-> last_new t (combine l rs) false = true.
  Proof.
    assert (G : forall l s rs s' b, hist l s = Ret (rs, s') -> (live s t <-> b = true) -> live s' t <-> last_new t (combine l rs) b = true).
    { clear. induction l as [|o l IH]; intros s rs s' b Hh I; cbn [api_hist] in Hh.
      - inversion Hh; subst. exact I.
      - destruct (run o s) as [[r s1]|] eqn:R1; [|discriminate]. cbn [obind] in Hh.
        destruct (hist l s1) as [[rs' s2]|] eqn:R2; [|discriminate]. cbn [obind] in Hh. inversion Hh; subst. clear Hh.
        cbn [combine last_new]. apply (IH s1 _ _ _ R2). destruct (same_target_spec (target o) t) as [<-|Ht]; cbn [andb].
        + rewrite (run_live _ _ _ _ R1). destruct (reply_ok r); [|exact I]. destruct (is_new o); [tauto|]. destruct (is_remove o); [intuition congruence|exact I].
        + unfold live. rewrite (C01_other_sessions_untouched _ _ _ _ t R1 Ht). exact I. }
    intro Hh. apply (G _ _ _ _ _ Hh). unfold live, sess, api_empty; cbn. destruct (fst t); cbn; intuition congruence.
  Qed.
  (** Remove reports whether there was a session, and afterwards there is none *)
  Theorem C03_remove_reports o s : is_remove o = true -> exists b s', run o s = Ret (RBool b, s') /\ (b = true <-> live s (target o)) /\ ~ live s' (target o).
  Proof.
    unfold live, sess. destruct o as [key i n pids root|key|key o|key i n pids msg kd rf path|key|key o]; cbn [target fst snd is_remove api_run]; try discriminate; intros _.
    - destruct (mget key (a_kg s)) eqn:M; do 2 eexists; (split; [reflexivity|]); cbn [a_kg]; rewrite ?mget_del_same, ?M; cbn; intuition congruence.
    - destruct (mget key (a_sg s)) eqn:M; do 2 eexists; (split; [reflexivity|]); cbn [a_sg]; rewrite ?mget_del_same, ?M; cbn; intuition congruence.
  Qed.
  (** a successful New replaces whatever was there: the session is the freshly created one *)
  Theorem C03_new_is_fresh key i n pids root s r s' : run (ANewK key i n pids root) s = Ret (RRes r, s') -> r_ok r = true ->
    exists p, kg_new i n (split comma pids) root = Ret (r, Some p) /\ mget key (a_kg s') = Some p.
  Proof.
    cbn [api_run]. intros E Ok. destruct (kg_new _ _ _ _) as [[r0 p]|] eqn:N; cbn [obind] in E; [|discriminate].
    inversion E; subst. destruct p as [p|]; [|apply (proj1 (kg_new_some _ _ _ _ _ _ N)) in Ok; congruence].
    exists p. split; [reflexivity|]. cbn [a_kg]. apply mget_put_same.
  Qed.
End P.

(** ** Non-vacuity: a history with two keygen keys, a removal, a call on the removed key, and a live other session *)
Definition ex_calls : list api :=
  [ANewK (str "a") 0 2 (str "1,2") (str "07"); ANewK (str "b") 1 2 (str "1,2") (str "zz"); ANewK (str "b") 1 2 (str "1,2") (str "08");
   AK (str "a") (KFin 1); ARemK (str "a"); AK (str "a") (KFin 1); ARemS (str "b"); AK (str "b") (KAcc 1 0 (str "!"))].
Definition ex_sum (o : outcome (list reply * api_state)) : option (list bool * bool * bool) :=
  match o with Ret (rs, s) => Some (map reply_ok rs, match mget (str "a") (a_kg s) with Some _ => true | None => false end, match mget (str "b") (a_kg s) with Some _ => true | None => false end) | Panic => None end.
Theorem C01_C02_C03_example C D H B S5 HM spare :
  ex_sum (api_hist C D H B S5 HM spare ex_calls api_empty) = Some ([true; false; true; false; true; false; false; false], false, true) /\
  on (false, str "a") ex_calls = [ANewK (str "a") 0 2 (str "1,2") (str "07"); AK (str "a") (KFin 1); ARemK (str "a"); AK (str "a") (KFin 1)].
Proof. split; reflexivity. Qed.
