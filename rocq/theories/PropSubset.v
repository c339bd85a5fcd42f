(** PropSubset.v -- C21: restricting the saved key data to a signer list. *)
From Verif Require Import Base BigInt Text PartyID Curve Save Keygen Subset.
From Coq Require Import Sorted Permutation.

(** ** Specification *)
(** saved data of a completed key generation: distinct ids in ascending order, one entry per id in every list *)
Record saved_for (src : save) (ks : list Z) : Prop := {
  sf_ks : sv_ks src = map Some ks;
  sf_asc : StronglySorted Z.lt ks;
  sf_nonneg : Forall (fun k => 0 <= k) ks;
  sf_pub : length (sv_pub src) = length ks;
  sf_pks : length (sv_pks src) = length ks;
  sf_peds : length (sv_peds src) = length ks }.
(** a signer list as tss.SortPartyIDs delivers it: distinct keys, ascending *)
Definition signers (ids : list party_id) (sel : list Z) : Prop :=
  map pid_key ids = map to_be sel /\ StronglySorted Z.lt sel /\ Forall (fun k => 0 <= k) sel.
(** [k] is stored at position [s] *)
Definition at_pos (ks : list Z) (k : Z) (s : nat) : Prop := nth_error ks s = Some k.

(** ** Facts *)
Lemma key_map_get j ks m0 m : key_map j (map Some ks) m0 = Ret m -> Forall (fun k => 0 <= k) ks -> NoDup ks ->
  forall k, 0 <= k -> mget (hex_enc (to_be k)) m =
    match find (fun s => match nth_error ks s with Some k' => k' =? k | None => false end) (seq 0 (length ks)) with
    | Some s => Some (j + s)%nat
    | None => mget (hex_enc (to_be k)) m0
    end.
Proof.
  revert j m0; induction ks as [|x ks IH]; intros j m0 E F ND k Hk; cbn [map key_map length seq find] in *.
  - inversion E; reflexivity.
  - inversion F as [|? ? Hx Fx]; subst. inversion ND as [|? ? Hn NDx]; subst.
    rewrite (IH _ _ E Fx NDx k Hk). clear IH E.
    assert (SH : forall l, find (fun s => match nth_error (x :: ks) s with Some k' => k' =? k | None => false end) (map S l) =
       option_map S (find (fun s => match nth_error ks s with Some k' => k' =? k | None => false end) l)).
    { induction l as [|a l IH]; [reflexivity|]. cbn [map find nth_error]. destruct (match nth_error ks a with Some k' => k' =? k | None => false end); [reflexivity|exact IH]. }
    rewrite <- seq_shift. rewrite SH. cbn [nth_error].
    destruct (find _ (seq 0 (length ks))) as [s|] eqn:Ef.
    + destruct (Z.eqb_spec x k) as [->|Ne].
      * exfalso. apply find_some in Ef. destruct Ef as [_ Ef]. destruct (nth_error ks s) as [k'|] eqn:En; [|discriminate].
        apply Z.eqb_eq in Ef. subst. apply Hn. eapply nth_error_In; eauto.
      * cbn [option_map]. f_equal. lia.
    + cbn [option_map]. destruct (Z.eqb_spec x k) as [->|Ne].
      * rewrite mget_put_same. f_equal. lia.
      * rewrite mget_put_diff; [reflexivity|]. intro E. apply hex_enc_inj in E. apply to_be_inj in E; lia.
Qed.
Lemma key_map_total j ks m0 : exists m, key_map j (map Some ks) m0 = Ret m.
Proof. revert j m0; induction ks as [|k ks IH]; intros j m0; cbn; eauto. Qed.

Lemma lt_sorted_NoDup l : StronglySorted Z.lt l -> NoDup l.
Proof.
  induction 1 as [|a l S IH F]; constructor; auto. intro I. rewrite Forall_forall in F. specialize (F _ I). lia.
Qed.
Lemma lt_sorted_nth l i j a b : StronglySorted Z.lt l -> nth_error l i = Some a -> nth_error l j = Some b -> (i < j)%nat -> a < b.
Proof.
  intro S. revert i j; induction S as [|x l S IH F]; intros i j Hi Hj L; [destruct i; discriminate|].
  destruct j as [|j]; [lia|]. destruct i as [|i]; cbn in *.
  - inversion Hi; subst. rewrite Forall_forall in F. apply F. eapply nth_error_In; eauto.
  - apply (IH i j); auto. lia.
Qed.
Lemma lt_sorted_nth_inv l i j a b : StronglySorted Z.lt l -> nth_error l i = Some a -> nth_error l j = Some b -> a < b -> (i < j)%nat.
Proof.
  intros S Hi Hj L. destruct (Nat.lt_trichotomy i j) as [H|[->|H]]; [exact H|rewrite Hi in Hj; inversion Hj; lia|].
  pose proof (lt_sorted_nth _ _ _ _ _ S Hj Hi H). lia.
Qed.

(** the map knows exactly the saved ids, at their positions *)
Lemma key_map_pos ks m k s : key_map 0 (map Some ks) [] = Ret m -> Forall (fun k => 0 <= k) ks -> NoDup ks -> 0 <= k ->
  (mget (hex_enc (to_be k)) m = Some s <-> at_pos ks k s).
Proof.
  intros E F ND Hk. rewrite (key_map_get _ _ _ _ E F ND k Hk). unfold at_pos.
  destruct (find _ (seq 0 (length ks))) as [t|] eqn:Ef.
  - apply find_some in Ef. destruct Ef as [_ Ef]. destruct (nth_error ks t) as [k'|] eqn:En; [|discriminate]. apply Z.eqb_eq in Ef. subst k'.
    split.
    + intro H; inversion H; subst. exact En.
    + intro H. f_equal. rewrite <- H in En. cbn. apply (proj1 (NoDup_nth_error ks) ND t s); [|exact En].
      apply nth_error_Some. rewrite En, H. discriminate.
  - split; [cbn; discriminate|]. intro H. exfalso.
    assert (I : In s (seq 0 (length ks))). { apply in_seq. split; [lia|]. cbn. apply nth_error_Some. congruence. }
    pose proof (find_none _ _ Ef s I) as Q. cbn beta in Q. rewrite H, Z.eqb_refl in Q. discriminate.
Qed.

(** the loop, when every remaining signer is known: positions pos[0], pos[1], ... ascending *)
Lemma sub_loop_ok m pks peds ids : forall j s ks0 pub0 (n c : nat) (pos : list nat),
  length pos = length ids ->
  (forall t id, nth_error ids t = Some id -> mget (hex_enc (pid_key id)) m = nth_error pos t) ->
  (forall t u, nth_error pos t = Some u -> (j + t <= u < n)%nat) ->
  (forall t t' u u', (t < t')%nat -> nth_error pos t = Some u -> nth_error pos t' = Some u' -> (u < u')%nat) ->
  length ks0 = n -> length pub0 = n -> length pks = n -> length peds = n ->
  length (su_ks s) = n -> length (su_pub s) = n -> length (su_pks s) = c -> length (su_peds s) = c -> (j + length ids <= c)%nat ->
  (forall t, (j <= t)%nat -> nth_error (su_ks s) t = nth_error ks0 t) ->
  (forall t, (j <= t)%nat -> nth_error (su_pub s) t = nth_error pub0 t) ->
  exists s', sub_loop m pks peds j ids s = Ret (None, s') /\
    length (su_ks s') = n /\ length (su_pub s') = n /\ length (su_pks s') = c /\ length (su_peds s') = c /\
    (forall t u, nth_error pos t = Some u ->
       nth_error (su_ks s') (j + t) = nth_error ks0 u /\ nth_error (su_pub s') (j + t) = nth_error pub0 u /\
       nth_error (su_pks s') (j + t) = nth_error pks u /\ nth_error (su_peds s') (j + t) = nth_error peds u) /\
    (forall t, (t < j \/ j + length ids <= t)%nat ->
       nth_error (su_ks s') t = nth_error (su_ks s) t /\ nth_error (su_pub s') t = nth_error (su_pub s) t /\
       nth_error (su_pks s') t = nth_error (su_pks s) t /\ nth_error (su_peds s') t = nth_error (su_peds s) t).
Proof.
  induction ids as [|id ids IH]; intros j s ks0 pub0 n c pos Lp Hm Hr Hi L1 L2 L3 L4 L5 L6 L7 L8 Hc Hk Hp.
  - exists s. cbn [sub_loop]. split; [reflexivity|]. destruct pos; [|discriminate]. cbn. 
    repeat split; auto; destruct t; discriminate.
  - destruct pos as [|u pos]; [discriminate|]. cbn [sub_loop].
    rewrite (Hm 0%nat id eq_refl). cbn [nth_error].
    pose proof (Hr 0%nat u eq_refl) as Ru. cbn [length] in Hc.
    assert (G : forall A (l : list A), length l = n -> exists a, nth_error l u = Some a /\ idx l (Z.of_nat u) = Ret a).
    { intros A l El. destruct (nth_error l u) as [a|] eqn:En; [|apply nth_error_None in En; lia]. exists a. split; auto. rewrite idx_nat, En. reflexivity. }
    destruct (G _ ks0 L1) as (k & Nk & _). destruct (G _ pub0 L2) as (x & Nx & _).
    destruct (G _ pks L3) as (pk & Npk & Ipk). destruct (G _ peds L4) as (pd & Npd & Ipd).
    assert (Ik : idx (su_ks s) (Z.of_nat u) = Ret k). { rewrite idx_nat, Hk, Nk by lia. reflexivity. }
    assert (Ix : idx (su_pub s) (Z.of_nat u) = Ret x). { rewrite idx_nat, Hp, Nx by lia. reflexivity. }
    rewrite Ik, Ix, Ipk, Ipd. cbn [obind].
    rewrite (store_nat (su_ks s)) by lia. cbn [obind]. rewrite (store_nat (su_pub s)) by lia. cbn [obind].
    rewrite (store_nat (su_pks s)) by lia. cbn [obind]. rewrite (store_nat (su_peds s)) by lia. cbn [obind].
    set (s1 := {| su_ks := upd j k (su_ks s); su_pub := upd j x (su_pub s); su_pks := upd j pk (su_pks s); su_peds := upd j pd (su_peds s) |}).
    destruct (IH (S j) s1 ks0 pub0 n c pos) as (s' & E & A1 & A2 & A3 & A4 & P & Q); cbn [s1 su_ks su_pub su_pks su_peds]; rewrite ?upd_length; auto.
    + intros t id' Ht. apply (Hm (S t) id' Ht).
    + intros t v Hv. pose proof (Hr (S t) v Hv). pose proof (Hi 0%nat (S t) u v ltac:(lia) eq_refl Hv). lia.
    + intros t t' v v' Lt H1 H2. apply (Hi (S t) (S t') v v'); auto. lia.
    + cbn [length] in *. lia.
    + intros t Ht. rewrite nth_error_upd_diff by lia. apply Hk. lia.
    + intros t Ht. rewrite nth_error_upd_diff by lia. apply Hp. lia.
    + exists s'. split; [exact E|]. do 4 (split; [assumption|]).
      cbn [s1 su_ks su_pub su_pks su_peds] in Q. split.
      * intros [|t] v Hv; cbn [nth_error] in Hv.
        -- inversion Hv; subst v. rewrite Nat.add_0_r. destruct (Q j ltac:(left; lia)) as (Q1 & Q2 & Q3 & Q4).
           rewrite Q1, Q2, Q3, Q4, !nth_error_upd_same by lia. rewrite Nk, Nx, Npk, Npd. auto.
        -- replace (j + S t)%nat with (S j + t)%nat by lia. apply P. exact Hv.
      * intros t Ht. cbn [length] in Ht. destruct (Q t ltac:(lia)) as (Q1 & Q2 & Q3 & Q4).
        rewrite Q1, Q2, Q3, Q4, !nth_error_upd_diff by lia. auto.
Qed.

Lemma map_nth_error_inv {A B} (f : A -> B) l t b : nth_error (map f l) t = Some b -> exists a, nth_error l t = Some a /\ f a = b.
Proof. revert t; induction l as [|x l IH]; intros [|t] H; cbn in *; try discriminate; [inversion H; eauto|auto]. Qed.
Lemma Forall_nth_error {A} (P : A -> Prop) l t a : Forall P l -> nth_error l t = Some a -> P a.
Proof. intros F H. rewrite Forall_forall in F. apply F. eapply nth_error_In; eauto. Qed.

Lemma Some_eq {A} (a b : A) : Some a = Some b -> a = b. Proof. congruence. Qed.

(** positions of an ascending selection in an ascending list *)
Lemma positions ks sel : StronglySorted Z.lt ks -> StronglySorted Z.lt sel -> (forall k, In k sel -> In k ks) ->
  exists pos, length pos = length sel /\
    (forall t u k, nth_error pos t = Some u -> nth_error sel t = Some k -> at_pos ks k u) /\
    (forall t t' u u', (t < t')%nat -> nth_error pos t = Some u -> nth_error pos t' = Some u' -> (u < u')%nat) /\
    (forall t u, nth_error pos t = Some u -> (t <= u < length ks)%nat).
Proof.
  intros Sk Ss Inc.
  assert (E : exists pos, length pos = length sel /\ forall t u k, nth_error pos t = Some u -> nth_error sel t = Some k -> at_pos ks k u).
  { clear Ss. induction sel as [|k sel IH]; [exists []; split; [reflexivity|intros [|t] u k H; discriminate]|].
    destruct IH as (pos & L & P); [intros; apply Inc; right; auto|].
    destruct (In_nth_error ks k (Inc k (or_introl eq_refl))) as (u & Hu).
    exists (u :: pos). split; [cbn; lia|]. intros [|t] v k' H1 H2; cbn in *; [|eauto].
    apply Some_eq in H1, H2. subst. exact Hu. }
  destruct E as (pos & L & P). exists pos. split; [exact L|]. split; [exact P|].
  assert (MONO : forall t t' u u', (t < t')%nat -> nth_error pos t = Some u -> nth_error pos t' = Some u' -> (u < u')%nat).
  { intros t t' u u' Lt H1 H2.
    assert (T : exists k, nth_error sel t = Some k). { destruct (nth_error sel t) eqn:E; eauto. apply nth_error_None in E. apply nth_error_Some_lt in H1. lia. }
    assert (T' : exists k, nth_error sel t' = Some k). { destruct (nth_error sel t') eqn:E; eauto. apply nth_error_None in E. apply nth_error_Some_lt in H2. lia. }
    destruct T as (k & Hk), T' as (k' & Hk').
    apply (lt_sorted_nth_inv ks u u' k k' Sk (P _ _ _ H1 Hk) (P _ _ _ H2 Hk')). exact (lt_sorted_nth sel t t' k k' Ss Hk Hk' Lt). }
  split; [exact MONO|]. intros t u H. split.
  - revert u H. induction t as [|t IH]; intros u H; [lia|].
    destruct (nth_error pos t) as [v|] eqn:Ev.
    + specialize (IH v eq_refl). pose proof (MONO t (S t) v u ltac:(lia) Ev H). lia.
    + apply nth_error_None in Ev. apply nth_error_Some_lt in H. lia.
  - assert (T : exists k, nth_error sel t = Some k). { destruct (nth_error sel t) eqn:E; eauto. apply nth_error_None in E. apply nth_error_Some_lt in H. lia. }
    destruct T as (k & Hk). eapply nth_error_Some_lt. exact (P _ _ _ H Hk).
Qed.

(** ** C21 *)
(** For saved data and a signer list all of whose ids are saved, the call succeeds and position t of every list of the
    result holds exactly what was saved for the t-th signer; the Paillier and Pedersen lists hold nothing else. *)
Theorem C21_each_signer_partial src ks ids sel : saved_for src ks -> signers ids sel -> (forall k, In k sel -> In k ks) ->
  exists kp src', build_subset src ids = Ret (inr kp, src') /\
    (forall t k s, nth_error sel t = Some k -> at_pos ks k s ->
       nth_error (sv_ks kp) t = Some (Some k) /\ nth_error (sv_pub kp) t = nth_error (sv_pub src) s /\
       nth_error (sv_pks kp) t = nth_error (sv_pks src) s /\ nth_error (sv_peds kp) t = nth_error (sv_peds src) s) /\
    length (sv_pks kp) = length sel /\ length (sv_peds kp) = length sel /\
    sv_priv kp = sv_priv src /\ sv_share kp = sv_share src /\ sv_chain kp = sv_chain src /\ sv_ed kp = sv_ed src.
Proof.
  intros SF (Sk & Ss & Sn) Inc. destruct SF as [K1 K2 K3 K4 K5 K6].
  unfold build_subset. rewrite K1. destruct (key_map_total 0 ks []) as (m & Em). rewrite Em. cbn [obind].
  pose proof (lt_sorted_NoDup _ K2) as ND.
  destruct (positions ks sel K2 Ss Inc) as (pos & Lp & P & Mo & Rg).
  assert (LS : length ids = length sel). { rewrite <- (map_length pid_key ids), Sk, map_length. reflexivity. }
  destruct (sub_loop_ok m (sv_pks src) (sv_peds src) ids 0
     {| su_ks := map Some ks; su_pub := sv_pub src; su_pks := repeat None (length ids); su_peds := repeat None (length ids) |}
     (map Some ks) (sv_pub src) (length ks) (length ids) pos) as (s' & E & A1 & A2 & A3 & A4 & Q & _);
    cbn [su_ks su_pub su_pks su_peds]; rewrite ?map_length, ?repeat_length; auto; try lia.
  - intros t id Ht.
    assert (Hk : exists k, nth_error sel t = Some k /\ to_be k = pid_key id).
    { apply map_nth_error_inv with (f := to_be). rewrite <- Sk. apply map_nth_error. exact Ht. }
    destruct Hk as (k & Hk & Ek). rewrite <- Ek.
    destruct (nth_error pos t) as [u|] eqn:Eu; [|apply nth_error_None in Eu; apply nth_error_Some_lt in Hk; lia].
    apply (key_map_pos ks m k u Em K3 ND); [exact (Forall_nth_error _ _ _ _ Sn Hk)|]. exact (P _ _ _ Eu Hk).
  - cbn [obind] in *. rewrite E. cbn [obind]. eexists _, _. split; [reflexivity|].
    cbn [sv_ks sv_pub sv_pks sv_peds sv_priv sv_share sv_chain sv_ed set_peds set_pks set_pub set_ks].
    split; [|rewrite A3, A4, LS; repeat split; reflexivity].
    intros t k s Hk Hs.
    destruct (nth_error pos t) as [u|] eqn:Eu; [|apply nth_error_None in Eu; apply nth_error_Some_lt in Hk; lia].
    assert (u = s). { pose proof (P _ _ _ Eu Hk) as Pu. unfold at_pos in *. rewrite <- Hs in Pu.
      apply (proj1 (NoDup_nth_error ks) ND u s); [apply nth_error_Some; rewrite Pu, Hs; discriminate|exact Pu]. }
    subst u. destruct (Q t s Eu) as (Q1 & Q2 & Q3 & Q4). cbn [plus] in *. rewrite Q1, Q2, Q3, Q4. repeat split; auto.
    apply map_nth_error. exact Hs.
Qed.

(** for the full signer list the data comes back unchanged, and so does the caller's copy *)
Theorem C21_full_set src ks ids : saved_for src ks -> signers ids ks -> build_subset src ids = Ret (inr src, src).
Proof.
  intros SF SG. destruct (C21_each_signer_partial src ks ids ks SF SG ltac:(auto)) as (kp & src' & E & A & L1 & L2 & B1 & B2 & B3 & B4).
  destruct SF as [K1 K2 K3 K4 K5 K6]. destruct SG as (Sk & _).
  assert (LS : length ids = length ks). { rewrite <- (map_length pid_key ids), Sk, map_length. reflexivity. }
  unfold build_subset in E |- *. rewrite K1 in E |- *. destruct (key_map 0 (map Some ks) []) as [m|] eqn:Em; cbn [obind] in E |- *; [|discriminate].
  destruct (sub_loop _ _ _ _ _ _) as [[e s]|] eqn:El; cbn [obind] in E |- *; [|discriminate].
  destruct e as [e|]; [discriminate|].
  assert (E1 : kp = set_peds (su_peds s) (set_pks (su_pks s) (set_pub (su_pub s) (set_ks (su_ks s) src)))) by congruence.
  assert (E2 : src' = set_pub (su_pub s) (set_ks (su_ks s) src)) by congruence. subst kp src'.
  cbn [sv_ks sv_pub sv_pks sv_peds sv_priv sv_share sv_chain sv_ed set_peds set_pks set_pub set_ks] in *.
  assert (LEN : length (su_ks s) = length ks /\ length (su_pub s) = length ks).
  { clear - El K4. assert (G : forall ids j s0 e s, sub_loop m (sv_pks src) (sv_peds src) j ids s0 = Ret (e, s) -> length (su_ks s) = length (su_ks s0) /\ length (su_pub s) = length (su_pub s0)).
    { clear. induction ids as [|id ids IH]; intros j s0 e s E; cbn [sub_loop] in E; [inversion E; auto|].
      destruct (mget _ m); [|inversion E; auto].
      destruct (idx (su_ks s0) _); cbn [obind] in E; [|discriminate]. destruct (store (su_ks s0) _ _) eqn:S1; cbn [obind] in E; [|discriminate].
      destruct (idx (su_pub s0) _); cbn [obind] in E; [|discriminate]. destruct (store (su_pub s0) _ _) eqn:S2; cbn [obind] in E; [|discriminate].
      destruct (idx (sv_pks src) _); cbn [obind] in E; [|discriminate]. destruct (store (su_pks s0) _ _); cbn [obind] in E; [|discriminate].
      destruct (idx (sv_peds src) _); cbn [obind] in E; [|discriminate]. destruct (store (su_peds s0) _ _); cbn [obind] in E; [|discriminate].
      apply IH in E. cbn [su_ks su_pub] in E. apply store_Ret in S1, S2.
      destruct S1 as (_ & ->), S2 as (_ & ->). rewrite !upd_length in E. exact E. }
    apply G in El. cbn [su_ks su_pub] in El. rewrite map_length, K4 in El. exact El. }
  destruct LEN as [LK LP].
  assert (EQ : su_ks s = sv_ks src /\ su_pub s = sv_pub src /\ su_pks s = sv_pks src /\ su_peds s = sv_peds src).
  { assert (G : forall X (l l' : list X), length l = length ks -> length l' = length ks ->
      (forall t k, nth_error ks t = Some k -> nth_error l t = nth_error l' t) -> l = l').
    { intros X l l' H1 H2 H3. apply list_eq_nth. intro t. destruct (nth_error ks t) as [k|] eqn:Ek; [eapply H3; eauto|].
      apply nth_error_None in Ek. rewrite !(proj2 (nth_error_None _ _)) by lia. reflexivity. }
    split; [|split; [|split]]; (apply G; [congruence|rewrite ?K1, ?map_length; congruence|]); intros t k Hk; destruct (A t k t Hk Hk) as (A1 & A2 & A3 & A4); auto.
    rewrite A1, K1. symmetry. apply map_nth_error. exact Hk. }
  destruct EQ as (-> & -> & -> & ->). destruct src; reflexivity.
Qed.

(** an id that was not saved: the call is an error (it cannot crash as long as there are no more signers than saved ids),
    whatever the other ids are *)
Theorem C21_unknown_id src ks ids sel k : saved_for src ks -> signers ids sel -> (length sel <= length ks)%nat ->
  In k sel -> ~ In k ks -> exists src', build_subset src ids = Ret (inl ESigner, src').
Proof.
  intros [K1 K2 K3 K4 K5 K6] (Sk & Ss & Sn) LE Ik Nk.
  pose proof (lt_sorted_NoDup _ K2) as ND.
  unfold build_subset. rewrite K1. destruct (key_map_total 0 ks []) as (m & Em). rewrite Em. cbn [obind].
  assert (LS : length ids = length sel). { rewrite <- (map_length pid_key ids), Sk, map_length. reflexivity. }
  assert (G : forall ids sel j s, map pid_key ids = map to_be sel -> Forall (fun k => 0 <= k) sel -> In k sel ->
      length (su_ks s) = length ks -> length (su_pub s) = length ks -> (j + length ids <= length (su_pks s))%nat ->
      (j + length ids <= length (su_peds s))%nat -> (j + length ids <= length ks)%nat ->
      exists s', sub_loop m (sv_pks src) (sv_peds src) j ids s = Ret (Some ESigner, s')).
  { clear ids sel Sk Ss Sn LE Ik LS. induction ids as [|id ids IH]; intros sel j s Sk Sn Ik L1 L2 L3 L4 L5.
    - destruct sel; [destruct Ik|discriminate].
    - destruct sel as [|x sel]; [destruct Ik|]. cbn [map] in Sk. assert (Ex : pid_key id = to_be x) by congruence. assert (Sk' : map pid_key ids = map to_be sel) by congruence.
      inversion Sn as [|? ? Hx Sn']; subst. cbn [sub_loop length] in *. rewrite Ex.
      destruct (mget (hex_enc (to_be x)) m) as [u|] eqn:Eu; [|eauto].
      pose proof (proj1 (key_map_pos ks m x u Em K3 ND Hx) Eu) as Pu. pose proof (nth_error_Some_lt _ _ _ Pu) as Lu.
      assert (G : forall A (l : list A), length l = length ks -> exists a, idx l (Z.of_nat u) = Ret a).
      { intros A l El. rewrite idx_nat. destruct (nth_error l u) eqn:En; eauto. apply nth_error_None in En. lia. }
      destruct (G _ (su_ks s) L1) as (a1 & ->). destruct (G _ (su_pub s) L2) as (a2 & ->).
      destruct (G _ (sv_pks src) K5) as (a3 & ->). destruct (G _ (sv_peds src) K6) as (a4 & ->). cbn [obind].
      rewrite (store_nat (su_ks s)) by lia. cbn [obind]. rewrite (store_nat (su_pub s)) by lia. cbn [obind].
      rewrite (store_nat (su_pks s)) by lia. cbn [obind]. rewrite (store_nat (su_peds s)) by lia. cbn [obind].
      apply (IH sel); auto; cbn [su_ks su_pub su_pks su_peds]; rewrite ?upd_length; try lia.
      destruct Ik as [->|Ik]; [|exact Ik]. exfalso. apply Nk. eapply nth_error_In. exact Pu. }
  destruct (G ids sel 0%nat {| su_ks := map Some ks; su_pub := sv_pub src; su_pks := repeat None (length ids); su_peds := repeat None (length ids) |}) as (s' & ->);
    cbn [su_ks su_pub su_pks su_peds]; rewrite ?map_length, ?repeat_length; auto; try lia.
  cbn [obind]. eauto.
Qed.

(** ** What is false of the code: signers {5, 9} of saved ids {5, 7, 9} *)
Definition ex_src : save :=
  {| sv_priv := Some 3; sv_share := Some 5; sv_chain := None; sv_ks := [Some 5; Some 7; Some 9];
     sv_pub := [Some (8, 1); Some (16, 1); Some (24, 1)]; sv_ed := Some (48, 1);
     sv_pks := [Some (Some 15); Some (Some 21); Some (Some 35)]; sv_peds := [None; None; None] |}.
Definition ex_id (k : Z) (i : Z) : party_id := {| pid_id := []; pid_moniker := []; pid_key := to_be k; pid_index := i |}.

Ltac sorted := repeat (first [apply SSorted_nil | apply SSorted_cons | apply Forall_nil | apply Forall_cons | lia]).
Lemma ex_saved : saved_for ex_src [5; 7; 9].
Proof. constructor; try reflexivity; sorted. Qed.
Lemma ex_signers : signers [ex_id 5 0; ex_id 9 1] [5; 9].
Proof. split; [reflexivity|]. split; sorted. Qed.

(** hypotheses of the positive theorems are met, with a strict subset, the full set and an unknown id *)
Theorem C21_example : saved_for ex_src [5; 7; 9] /\ signers [ex_id 5 0; ex_id 9 1] [5; 9] /\
  signers [ex_id 5 0; ex_id 7 1; ex_id 9 2] [5; 7; 9] /\ signers [ex_id 5 0; ex_id 6 1] [5; 6] /\
  (exists kp src', build_subset ex_src [ex_id 5 0; ex_id 9 1] = Ret (inr kp, src') /\
     sv_pks kp = [Some (Some 15); Some (Some 35)]).
Proof.
  split; [exact ex_saved|]. split; [exact ex_signers|]. split; [split; [reflexivity|split; sorted]|].
  split; [split; [reflexivity|split; sorted]|]. eexists _, _. split; reflexivity.
Qed.

(** 'and nothing else' and 'the source data is not modified' are false: a third public share stays in the result, and the
    caller's own list has lost the share of the party that is not signing *)
Theorem C21_strict_subset_refuted : exists src ks ids sel kp src',
  saved_for src ks /\ signers ids sel /\ (forall k, In k sel -> In k ks) /\
  build_subset src ids = Ret (inr kp, src') /\ length (sv_pub kp) <> length sel /\ src' <> src /\
  ~ In (Some (16, 1)) (sv_pub src') /\ In (Some (16, 1)) (sv_pub src).
Proof.
  exists ex_src, [5; 7; 9], [ex_id 5 0; ex_id 9 1], [5; 9]. eexists _, _.
  split; [exact ex_saved|]. split; [exact ex_signers|]. split; [cbn; intuition|].
  split; [vm_compute; reflexivity|]. split; [vm_compute; discriminate|]. split; [discriminate|]. split.
  - cbn. intros [E|[E|[E|[]]]]; discriminate.
  - cbn. auto.
Qed.
