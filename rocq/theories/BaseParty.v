(** BaseParty.v -- tss/party.go 110-183 (BaseStart, BaseUpdate) over an abstract protocol, and C38.

    A protocol gives the round objects [R] and the party's data [D] with the operations of tss.Round and tss.Party the
    two functions use; these may do anything to the data.  NextRound is a function of the round object.  The lock is held
    through BaseStart and through each pass of BaseUpdate, which releases it before calling itself again; so the unit of
    the model is one locked section, and any interleaving of concurrent calls is a sequence of sections.  Logging, the
    unlocked use of the round inside WrapError, and error contents are not modelled ([E] is the type of errors). *)
From Verif Require Import Base.

Record protocol (R D M E : Type) := {
  pr_valid_id : bool;                              (* PartyID() != nil && ValidateBasic() *)
  pr_first : R;                                    (* FirstRound() *)
  pr_next : R -> option R;                         (* NextRound(); None = nil *)
  pr_start : R -> D -> option E * D;               (* Start() *)
  pr_update : R -> D -> option E * D;              (* Update(): the error and the new data; the bool is ignored by the code *)
  pr_can : R -> D -> bool;                         (* CanProceed() *)
  pr_validate : M -> option E;                     (* ValidateMessage *)
  pr_store : M -> D -> bool * option E * D;        (* StoreMessage *)
  pr_wrap : E                                      (* some error made by WrapError *)
}.
Arguments pr_valid_id {R D M E}. Arguments pr_first {R D M E}. Arguments pr_next {R D M E}. Arguments pr_start {R D M E}.
Arguments pr_update {R D M E}. Arguments pr_can {R D M E}. Arguments pr_validate {R D M E}. Arguments pr_store {R D M E}. Arguments pr_wrap {R D M E}.

(** what an observer of the round objects sees *)
Inductive event (R : Type) := EEnter (r : R) | EStart (r : R) | EUpdate (r : R) | ECan (r : R) (b : bool) | EFinish.
Arguments EEnter {R}. Arguments EStart {R}. Arguments EUpdate {R}. Arguments ECan {R}. Arguments EFinish {R}.

Section Base.
  Context {R D M E : Type}.
  Variable P : protocol R D M E.
  Record pstate := { ps_rnd : option R; ps_data : D }.

  (** party.go 112-139 BaseStart; [prep] are the prepare functions *)
  Definition base_start (prep : list (R -> D -> option E * D)) (s : pstate) : option E * pstate * list (event R) :=
    if negb (pr_valid_id P) then (Some (pr_wrap P), s, [])
    else match ps_rnd s with
    | Some _ => (Some (pr_wrap P), s, [])
    | None =>
      let r := pr_first P in
      let enter := EEnter r in
      let go d := let '(e, d') := pr_start P r d in (e, {| ps_rnd := Some r; ps_data := d' |}, [enter; EStart r]) in
      match prep with
      | [] => go (ps_data s)
      | [f] => let '(e, d) := f r (ps_data s) in
               match e with Some x => (Some x, {| ps_rnd := Some r; ps_data := d |}, [enter]) | None => go d end
      | _ => (Some (pr_wrap P), {| ps_rnd := Some r; ps_data := ps_data s |}, [enter])
      end
    end.

  (** party.go 143-183 BaseUpdate, one pass: [Again] is the tail call at 178 *)
  Inductive pass := Done (ok : bool) (e : option E) | Again.
  Definition base_pass (m : M) (s : pstate) : pass * pstate * list (event R) :=
    match pr_validate P m with
    | Some x => (Done false (Some x), s, [])
    | None =>
      let '(ok, e, d1) := pr_store P m (ps_data s) in
      let s1 := {| ps_rnd := ps_rnd s; ps_data := d1 |} in
      match e, ok with
      | None, true =>
        match ps_rnd s with
        | None => (Done true None, s1, [])
        | Some r =>
          let '(eu, d2) := pr_update P r d1 in
          match eu with
          | Some x => (Done false (Some x), {| ps_rnd := Some r; ps_data := d2 |}, [EUpdate r])
          | None =>
            if pr_can P r d2 then
              match pr_next P r with
              | Some r' => let '(es, d3) := pr_start P r' d2 in
                           (match es with Some x => Done false (Some x) | None => Again end,
                            {| ps_rnd := Some r'; ps_data := d3 |}, [EUpdate r; ECan r true; EEnter r'; EStart r'])
              | None => (Again, {| ps_rnd := None; ps_data := d2 |}, [EUpdate r; ECan r true; EFinish])
              end
            else (Done true None, {| ps_rnd := Some r; ps_data := d2 |}, [EUpdate r; ECan r false])
          end
        end
      | _, _ => (Done false e, s1, [])
      end
    end.
  (** a whole call without interference: passes until one is done ([None]: more than [fuel] passes) *)
  Fixpoint base_update (fuel : nat) (m : M) (s : pstate) : option (bool * option E * pstate * list (event R)) :=
    match fuel with
    | O => None
    | S fuel => match base_pass m s with
                | (Done ok e, s', ev) => Some (ok, e, s', ev)
                | (Again, s', ev) => match base_update fuel m s' with Some (ok, e, s2, ev2) => Some (ok, e, s2, ev ++ ev2) | None => None end
                end
    end.

  (** any interleaving: a sequence of locked sections *)
  Inductive section := SStart (prep : list (R -> D -> option E * D)) | SPass (m : M).
  Definition run1 (x : section) (s : pstate) : pstate * list (event R) :=
    match x with
    | SStart prep => let '(_, s', ev) := base_start prep s in (s', ev)
    | SPass m => let '(_, s', ev) := base_pass m s in (s', ev)
    end.
  Fixpoint run (l : list section) (s : pstate) : pstate * list (event R) :=
    match l with [] => (s, []) | x :: l => let '(s1, e1) := run1 x s in let '(s2, e2) := run l s1 in (s2, e1 ++ e2) end.

  (** ** Specification: the allowed traces.  [Idle]: no round; [In r]: round r runs; [Ready r]: r said it can proceed. *)
  Inductive life := Idle | In_ (r : R) | Ready (r : R).
  Inductive step : life -> event R -> life -> Prop :=
  | st_first : step Idle (EEnter (pr_first P)) (In_ (pr_first P))
  | st_start r : step (In_ r) (EStart r) (In_ r)
  | st_update r : step (In_ r) (EUpdate r) (In_ r)
  | st_wait r : step (In_ r) (ECan r false) (In_ r)
  | st_ready r : step (In_ r) (ECan r true) (Ready r)
  | st_next r r' : pr_next P r = Some r' -> step (Ready r) (EEnter r') (In_ r')
  | st_finish r : pr_next P r = None -> step (Ready r) EFinish Idle.
  Inductive steps : life -> list (event R) -> life -> Prop :=
  | ss_nil l : steps l [] l
  | ss_cons l e l' es l'' : step l e l' -> steps l' es l'' -> steps l (e :: es) l''.
  Definition life_of (s : pstate) : life := match ps_rnd s with None => Idle | Some r => In_ r end.

  Lemma steps_app a es b fs c : steps a es b -> steps b fs c -> steps a (es ++ fs) c.
  Proof. induction 1; intro X; [exact X|]. cbn. econstructor; eauto. Qed.
  Ltac go := repeat (first [apply ss_nil | eapply ss_cons; [constructor; eassumption || constructor|]]).
  Lemma run1_ok x s s' ev : run1 x s = (s', ev) -> steps (life_of s) ev (life_of s').
  Proof.
    destruct x as [prep|m]; cbn [run1].
    - unfold base_start. destruct (negb (pr_valid_id P)); [intro Q; injection Q as <- <-; constructor|].
      unfold life_of at 1. destruct (ps_rnd s) as [r|] eqn:Er; [intro Q; injection Q as <- <-; unfold life_of; rewrite Er; constructor|].
      destruct prep as [|f [|g prep]].
      + destruct (pr_start P (pr_first P) (ps_data s)) as [e d]. intro Q. injection Q as <- <-. unfold life_of. cbn. go.
      + destruct (f (pr_first P) (ps_data s)) as [e d]. destruct e; [intro Q; injection Q as <- <-; unfold life_of; cbn; go|].
        destruct (pr_start P (pr_first P) d) as [e d']. intro Q. injection Q as <- <-. unfold life_of. cbn. go.
      + intro Q. injection Q as <- <-. unfold life_of. cbn. go.
    - unfold base_pass. destruct (pr_validate P m); [intro Q; injection Q as <- <-; constructor|].
      destruct (pr_store P m (ps_data s)) as [[ok e] d1]. unfold life_of.
      destruct e; [destruct ok; intro Q; injection Q as <- <-; constructor|]. destruct ok; [|intro Q; injection Q as <- <-; constructor].
      destruct (ps_rnd s) as [r|] eqn:Er; [|intro Q; injection Q as <- <-; constructor].
      destruct (pr_update P r d1) as [eu d2]. destruct eu; [intro Q; injection Q as <- <-; cbn; go|].
      destruct (pr_can P r d2); [|intro Q; injection Q as <- <-; cbn; go].
      destruct (pr_next P r) as [r'|] eqn:En; [|intro Q; injection Q as <- <-; cbn; go].
      destruct (pr_start P r' d2) as [es d3]. intro Q. injection Q as <- <-. cbn. go.
  Qed.

  (** Under every schedule of concurrent Start and Update calls the trace is an allowed one, and the current round is
      where the trace says: rounds are entered in order, only after the current one said it can proceed, none is
      skipped or repeated, and the end is reached only from the last round. *)
  Theorem C38_every_schedule l s s' ev : run l s = (s', ev) -> steps (life_of s) ev (life_of s').
  Proof.
    revert s s' ev. induction l as [|x l IH]; intros s s' ev; cbn [run]; [intro Q; injection Q as <- <-; constructor|].
    destruct (run1 x s) as [s1 e1] eqn:E1. destruct (run l s1) as [s2 e2] eqn:E2. intro Q. injection Q as <- <-.
    eapply steps_app; [apply (run1_ok x); exact E1|apply IH; exact E2].
  Qed.

  (** the chain of rounds *)
  Fixpoint nth_round (n : nat) : option R :=
    match n with O => Some (pr_first P) | S n => match nth_round n with Some r => pr_next P r | None => None end end.
  Definition entered (ev : list (event R)) : list R := flat_map (fun e => match e with EEnter r => [r] | _ => [] end) ev.
  Definition finishes (ev : list (event R)) : nat := length (filter (fun e => match e with EFinish => true | _ => false end) ev).

  (** From a fresh party until the first finish, the i-th round entered is the i-th of the chain, and the current round is the last one entered. *)
  Lemma trace_prefix l ev l' : steps l ev l' -> finishes ev = 0%nat -> forall n,
    match l with Idle => n = 0%nat | In_ r | Ready r => exists k, n = S k /\ nth_round k = Some r end ->
    (forall i r, nth_error (entered ev) i = Some r -> nth_round (n + i) = Some r) /\
    match l' with Idle => (n + length (entered ev) = 0)%nat | In_ r | Ready r => exists k, (n + length (entered ev))%nat = S k /\ nth_round k = Some r end.
  Proof.
    induction 1 as [l|l e l1 es l2 S1 SS IH]; intros F n Inv.
    - cbn. rewrite Nat.add_0_r. split; [intros [|i] r Q; discriminate|exact Inv].
    - assert (Fs : finishes es = 0%nat) by (unfold finishes in *; cbn [filter] in F; destruct e; cbn [length] in F; try exact F; discriminate).
      specialize (IH Fs). inversion S1; subst; cbn [entered flat_map app]; fold (entered es); try (apply IH; exact Inv).
      + rewrite Inv. specialize (IH 1%nat ltac:(exists 0%nat; split; reflexivity)). destruct IH as [A B]. split.
        * intros [|i] r Q; cbn [nth_error] in Q; [injection Q as <-; reflexivity|]. apply A in Q. exact Q.
        * replace (0 + length (pr_first P :: entered es))%nat with (1 + length (entered es))%nat by (cbn; lia). exact B.
      + destruct Inv as (k & -> & K). specialize (IH (S (S k)) ltac:(exists (S k); split; [reflexivity|cbn [nth_round]; rewrite K; assumption])). destruct IH as [A B]. split.
        * intros [|i] q Q; cbn [nth_error] in Q; [injection Q as <-; rewrite Nat.add_0_r; cbn [nth_round]; rewrite K; assumption|].
          replace (S k + S i)%nat with (S (S k) + i)%nat by lia. apply A, Q.
        * replace (S k + length (r' :: entered es))%nat with (S (S k) + length (entered es))%nat by (cbn; lia). exact B.
      + discriminate F.
  Qed.
  Theorem C38_in_order l d s' ev : run l {| ps_rnd := None; ps_data := d |} = (s', ev) -> finishes ev = 0%nat ->
    (forall i r, nth_error (entered ev) i = Some r -> nth_round i = Some r) /\
    match ps_rnd s' with None => entered ev = [] | Some r => exists k, length (entered ev) = S k /\ nth_round k = Some r end.
  Proof.
    intros Q F. apply C38_every_schedule in Q. destruct (trace_prefix _ _ _ Q F 0%nat eq_refl) as [A B]. split; [exact A|].
    unfold life_of in B. destruct (ps_rnd s'); [exact B|]. destruct (entered ev); [reflexivity|discriminate B].
  Qed.

  (** Errors block: a pass whose message is invalid or not stored, or whose round fails to update, enters no round. *)
  Theorem C38_error_does_not_advance m s ok x s' ev : base_pass m s = (Done ok (Some x), s', ev) ->
    ps_rnd s' = ps_rnd s \/ (exists r r', ps_rnd s = Some r /\ pr_next P r = Some r' /\ ps_rnd s' = Some r' /\ exists d d', pr_start P r' d = (Some x, d')).
  Proof.
    unfold base_pass. destruct (pr_validate P m); [intro Q; injection Q as <- <- <- <-; auto|].
    destruct (pr_store P m (ps_data s)) as [[ok1 e] d1]. destruct e; [destruct ok1; intro Q; injection Q as <- <- <- <-; auto|].
    destruct ok1; [|discriminate]. destruct (ps_rnd s) as [r|] eqn:Er; [|discriminate].
    destruct (pr_update P r d1) as [eu d2]. destruct eu; [intro Q; injection Q as <- <- <- <-; auto|].
    destruct (pr_can P r d2); [|discriminate]. destruct (pr_next P r) as [r'|] eqn:En; [|discriminate].
    destruct (pr_start P r' d2) as [es d3] eqn:Es. destruct es; [|discriminate]. intro Q. injection Q as <- <- <- <-. right. exists r, r'. cbn. repeat split; auto. eauto.
  Qed.
  (** Without a running round an update stores its message and does nothing else. *)
  Theorem C38_no_round_only_stores m s : ps_rnd s = None -> pr_validate P m = None ->
    exists ok e d, pr_store P m (ps_data s) = (ok, e, d) /\ exists r, base_pass m s = (Done r e, {| ps_rnd := None; ps_data := d |}, []) /\ (r = true -> e = None /\ ok = true).
  Proof.
    intros N V. unfold base_pass. rewrite V, N. destruct (pr_store P m (ps_data s)) as [[ok e] d]. exists ok, e, d. split; [reflexivity|].
    destruct e; [destruct ok|destruct ok]; eexists; (split; [reflexivity|]); intro; auto; discriminate.
  Qed.
  (** A running party refuses to be started again and is unchanged. *)
  Theorem C38_start_twice prep s r : ps_rnd s = Some r -> exists e, base_start prep s = (Some e, s, []).
  Proof. intro Q. unfold base_start. destruct (negb _); [eauto|]. rewrite Q. eauto. Qed.

  (** A call returns: if the chain of rounds left has length n, n + 1 passes are enough, and more fuel changes nothing. *)
  Fixpoint rounds_left (n : nat) (r : R) : Prop := match n with O => False | S n => match pr_next P r with None => True | Some r' => rounds_left n r' end end.
  Theorem C38_update_returns n m s : match ps_rnd s with None => n = 0%nat | Some r => rounds_left n r end ->
    exists out, forall fuel, (n < fuel)%nat -> base_update fuel m s = Some out.
  Proof.
    revert s. induction n as [|n IH]; intros s Q.
    - destruct (ps_rnd s) as [r|] eqn:Er; [contradiction|].
      assert (B : exists ok e s' ev, base_pass m s = (Done ok e, s', ev)).
      { unfold base_pass. destruct (pr_validate P m); [eauto 6|]. destruct (pr_store P m (ps_data s)) as [[ok e] d]. rewrite Er. destruct e; destruct ok; eauto 6. }
      destruct B as (ok & e & s' & ev & B). exists (ok, e, s', ev). intros [|fuel] L; [lia|]. cbn [base_update]. rewrite B. reflexivity.
    - destruct (ps_rnd s) as [r|] eqn:Er; [|discriminate]. cbn [rounds_left] in Q.
      destruct (base_pass m s) as [[p s'] ev] eqn:B. destruct p as [ok e|].
      + exists (ok, e, s', ev). intros [|fuel] L; [lia|]. cbn [base_update]. rewrite B. reflexivity.
      + assert (G : match ps_rnd s' with None => True | Some r' => pr_next P r = Some r' end /\ (ps_rnd s' = None -> pr_next P r = None)).
        { unfold base_pass in B. destruct (pr_validate P m); [discriminate|]. destruct (pr_store P m (ps_data s)) as [[ok e] d1]. destruct e; [destruct ok; discriminate|].
          destruct ok; [|discriminate]. rewrite Er in B. destruct (pr_update P r d1) as [eu d2]. destruct eu; [discriminate|]. destruct (pr_can P r d2); [|discriminate].
          destruct (pr_next P r) as [r'|] eqn:En; [destruct (pr_start P r' d2) as [es d3]; destruct es; [discriminate|]|]; injection B as <- <-; cbn; split; auto; discriminate. }
        destruct G as [G1 G2]. destruct (ps_rnd s') as [r'|] eqn:Er'.
        * rewrite G1 in Q. destruct (IH s') as [[[[ok e] s2] ev2] IHs]; [rewrite Er'; exact Q|]. exists (ok, e, s2, ev ++ ev2).
          intros [|fuel] L; [lia|]. cbn [base_update]. rewrite B, IHs by lia. reflexivity.
        * assert (B2 : exists ok e s2 ev2, base_pass m s' = (Done ok e, s2, ev2)).
          { unfold base_pass. destruct (pr_validate P m); [eauto 6|]. destruct (pr_store P m (ps_data s')) as [[ok e] d]. rewrite Er'. destruct e; destruct ok; eauto 6. }
          destruct B2 as (ok & e & s2 & ev2 & B2). exists (ok, e, s2, ev ++ ev2). intros [|[|fuel]] L; [lia|lia|].
          cbn [base_update]. rewrite B, B2. reflexivity.
  Qed.
End Base.

(** ** Example: three rounds numbered 1 to 3 which proceed when that many messages are stored *)
Definition c38_proto : protocol nat nat nat unit :=
  {| pr_valid_id := true; pr_first := 1%nat; pr_next := fun r => if (r <? 3)%nat then Some (S r) else None;
     pr_start := fun _ d => (None, d); pr_update := fun _ d => (None, d); pr_can := fun r d => (r <=? d)%nat;
     pr_validate := fun m => if (m =? 0)%nat then Some tt else None; pr_store := fun m d => (true, None, Nat.max m d); pr_wrap := tt |}.
Theorem C38_example : run c38_proto [SStart []; SPass 0%nat; SPass 1%nat; SPass 1%nat; SPass 3%nat; SPass 3%nat; SPass 3%nat] {| ps_rnd := None; ps_data := 0%nat |} =
  ({| ps_rnd := None; ps_data := 3%nat |},
   [EEnter 1%nat; EStart 1%nat; EUpdate 1%nat; ECan 1%nat true; EEnter 2%nat; EStart 2%nat; EUpdate 2%nat; ECan 2%nat false;
    EUpdate 2%nat; ECan 2%nat true; EEnter 3%nat; EStart 3%nat; EUpdate 3%nat; ECan 3%nat true; EFinish]) /\
  rounds_left c38_proto 3 1%nat /\ base_update c38_proto 4 3%nat {| ps_rnd := Some 1%nat; ps_data := 0%nat |} <> None.
Proof. split; [vm_compute; reflexivity|]. split; [exact I|discriminate]. Qed.
(** "finish exactly once" fails: a finished party has no round, so Start runs the protocol again. *)
Theorem C38_restart_after_finish_refuted : exists l s' ev, run c38_proto l {| ps_rnd := None; ps_data := 0%nat |} = (s', ev) /\ finishes ev = 2%nat.
Proof.
  exists [SStart []; SPass 3%nat; SPass 3%nat; SPass 3%nat; SStart []; SPass 3%nat; SPass 3%nat; SPass 3%nat]. do 2 eexists. split; vm_compute; reflexivity.
Qed.
(** A failed Start (two prepare functions, or one that fails) leaves the first round set but never started; updates then run it. *)
Theorem C38_failed_start_sets_round_refuted : exists prep s', base_start c38_proto prep {| ps_rnd := None; ps_data := 0%nat |} = (Some tt, s', [EEnter 1%nat]) /\
  ps_rnd s' = Some 1%nat /\ snd (base_pass c38_proto 1%nat s') = [EUpdate 1%nat; ECan 1%nat true; EEnter 2%nat; EStart 2%nat].
Proof. exists [fun _ d => (Some tt, d)]. eexists. split; [vm_compute; reflexivity|]. split; reflexivity. Qed.
(** A cyclic chain of rounds that can always proceed makes an Update call run for ever. *)
Definition c38_loop : protocol nat nat nat unit :=
  {| pr_valid_id := true; pr_first := 0%nat; pr_next := fun r => Some r; pr_start := fun _ d => (None, d); pr_update := fun _ d => (None, d);
     pr_can := fun _ _ => true; pr_validate := fun _ => None; pr_store := fun _ d => (true, None, d); pr_wrap := tt |}.
Theorem C38_cycle_diverges_refuted fuel : base_update c38_loop fuel 0%nat {| ps_rnd := Some 0%nat; ps_data := 0%nat |} = None.
Proof. induction fuel as [|fuel IH]; [reflexivity|]. cbn [base_update]. change (base_pass c38_loop 0%nat {| ps_rnd := Some 0%nat; ps_data := 0%nat |}) with (@Again unit, {| ps_rnd := Some 0%nat; ps_data := 0%nat |}, [EUpdate 0%nat; ECan 0%nat true; EEnter 0%nat; EStart 0%nat]). cbv iota beta. rewrite IH. reflexivity. Qed.
