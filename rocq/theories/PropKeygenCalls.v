(** PropKeygenCalls.v -- C09-C16 (key generation): srid agreement, what retried, rejected, mistyped and
    skipped calls do. *)
From Verif Require Import Base BigInt HashFrame Text Wire Messages PartyID Curve Schnorr Json Save Keygen Xor KeygenNet KeygenHonest KeygenWorld KeygenAdv KeygenHist ToyCurve PropKeygen PropKeygenAdv.
From Coq Require Import Permutation.

(** Running a list of calls. *)
Fixpoint run_ops (C : curve) (H : bytes -> bytes) (ops : list kop) (p : kparty) : option (list (kop * res) * kparty) :=
  match ops with
  | [] => Some ([], p)
  | o :: t => match kop_run C H o p with
              | Ret (r, p1) => match run_ops C H t p1 with Some (l, p2) => Some ((o, r) :: l, p2) | None => None end
              | Panic => None
              end
  end.
Lemma run_ops_hist C H ops p l p' : run_ops C H ops p = Some (l, p') -> k_hist C H p l p'.
Proof.
  revert p l. induction ops as [|o ops IH]; intros p l E; cbn [run_ops] in E; [inversion E; constructor|].
  destruct (kop_run C H o p) as [[r p1]|] eqn:R; [|discriminate].
  destruct (run_ops C H ops p1) as [[l1 p2]|] eqn:R1; [|discriminate]. inversion E; subst.
  change ((o, r) :: l1) with ([(o, r)] ++ l1). eapply hist_app; [|apply IH; exact R1].
  change [(o, r)] with ([] ++ [(o, r)]). econstructor; [constructor|exact R].
Qed.

Section Calls.
  Variable C : curve.
  Variable H : bytes -> bytes.
  Notation hist := (k_hist C H).
  Notation call := (kop_run C H).
  Notation n := (c_n C).

  (** ** C09: the joint srid *)
  (** the srid a party used for party j: its own, or the one j revealed to it *)
  Definition srid_seen (p : kparty) (j : nat) : bytes :=
    if (j =? kp_i p)%nat then kp_srid p else open_srid (nth j (kp_r2 p) []).

  Lemma r3_srid p res p' : call KR3 p = Ret (res, p') -> r_ok res = true -> (kp_i p < length (kp_r2 p))%nat ->
    kp_srid p' = xors (map (srid_seen p) (seq 0 (length (kp_r2 p)))).
  Proof.
    intros R Ok Hi. cbn [kop_run] in R. destruct (r3_exec_inv C H p res p' R Ok) as (_ & r3 & X & A & c & t & x & -> & _).
    unfold r3_result, r3_state. cbn [k_set_r3 k_set_number k_set_srid kp_srid].
    rewrite fold_left_xor.
    rewrite <- (xors_perm (map (srid_seen p) (kp_i p :: filter (fun j => negb (j =? kp_i p)%nat) (seq 0 (length (kp_r2 p)))))
                          (map (srid_seen p) (seq 0 (length (kp_r2 p))))).
    - cbn [map xors fold_right]. unfold srid_seen at 1. rewrite Nat.eqb_refl. f_equal. unfold xors. f_equal.
      apply map_ext_in. intros j Hj. apply filter_In in Hj. destruct Hj as [_ Hj]. unfold srid_seen.
      destruct (j =? kp_i p)%nat; [discriminate|reflexivity].
    - apply Permutation_map. apply filter_seq_perm. exact Hi.
  Qed.

  (** Two parties of the same run that both complete round 3 and that, for every party, used the same srid
      (their own as revealed to the other, and the same openings of everybody else), end with the same joint
      srid, whatever the order in which messages arrived. *)
  Theorem C09_same_srid_partial p res p' q res' q' N :
    call KR3 p = Ret (res, p') -> r_ok res = true -> call KR3 q = Ret (res', q') -> r_ok res' = true ->
    length (kp_r2 p) = N -> length (kp_r2 q) = N -> (kp_i p < N)%nat -> (kp_i q < N)%nat ->
    (forall j, (j < N)%nat -> srid_seen p j = srid_seen q j) ->
    kp_srid p' = kp_srid q'.
  Proof.
    intros R Ok R' Ok' L L' I I' S.
    rewrite (r3_srid p res p' R Ok), (r3_srid q res' q' R' Ok'), L, L' by lia.
    f_equal. apply map_ext_in. intros j Hj. apply in_seq in Hj. apply S. lia.
  Qed.

  (** and, unless the hash collides, equal commitments already force equal openings: if both parties hold the
      same commitment for j and both complete round 3, they used the same srid and the same public share. *)
  Theorem C09_same_commitments_same_openings p res p' q res' q' j :
    call KR3 p = Ret (res, p') -> r_ok res = true -> call KR3 q = Ret (res', q') -> r_ok res' = true ->
    kp_ssid p = kp_ssid q -> (j < length (kp_r2 p))%nat -> (j < length (kp_r2 q))%nat -> j <> kp_i p -> j <> kp_i q ->
    nth j (kp_V p) [] = nth j (kp_V q) [] -> Z.of_nat j < 2 ^ 62 ->
    msg_small (open_of (nth j (kp_r2 p) [])) -> msg_small (open_of (nth j (kp_r2 q) [])) ->
    (srid_seen p j = srid_seen q j /\ open_X (nth j (kp_r2 p) []) = open_X (nth j (kp_r2 q) [])) \/ exists a b, collision H a b.
  Proof.
    intros R Ok R' Ok' Es Hj Hj' Ni Ni' EV Sj M1 M2. cbn [kop_run] in R, R'.
    destruct (r3_exec_inv C H p res p' R Ok) as (A & _). destruct (r3_exec_inv C H q res' q' R' Ok') as (A' & _).
    specialize (A j Hj Ni). specialize (A' j Hj' Ni'). rewrite <- Es, <- EV in A'.
    destruct (opening_new_point C H _ _ _ _ A) as (P & _). destruct (opening_new_point C H _ _ _ _ A') as (P' & _).
    destruct (C07_commitment_binding C H _ _ _ _ _ _ _ _ (opening_ok_matches _ _ _ _ _ _ A) (opening_ok_matches _ _ _ _ _ _ A') P P' M1 M2 Sj Sj) as [[_ E]|]; [left|right; auto].
    unfold revealed in E. inversion E. unfold srid_seen, open_X, open_srid.
    replace (j =? kp_i p)%nat with false by (symmetry; apply Nat.eqb_neq; auto).
    replace (j =? kp_i q)%nat with false by (symmetry; apply Nat.eqb_neq; auto). split; [assumption|congruence].
  Qed.

  (** Retrying round 3 is not idempotent: a second call xors the peers' srids in again, which takes the joint
      srid back to the party's own value (when the peers' srids are not longer than its own). *)
  Theorem C09_retry_undoes_srid p res p' res' p'' :
    call KR3 p = Ret (res, p') -> r_ok res = true -> call KR3 p' = Ret (res', p'') -> r_ok res' = true ->
    (forall j, (j < length (kp_r2 p))%nat -> (length (open_srid (nth j (kp_r2 p) [])) <= length (kp_srid p))%nat) ->
    kp_srid p'' = kp_srid p.
  Proof.
    intros R Ok R' Ok' Len. cbn [kop_run] in R, R'.
    destruct (r3_exec_inv C H p res p' R Ok) as (_ & r3 & X & A & c & t & x & E & _).
    destruct (r3_exec_inv C H p' res' p'' R' Ok') as (_ & r3' & X' & A' & c' & t' & x' & E' & _).
    assert (S2 : kp_srid p'' = fold_left xor (map (fun j => open_srid (nth j (kp_r2 p) [])) (filter (fun j => negb (j =? kp_i p)%nat) (seq 0 (length (kp_r2 p))))) (kp_srid p'))
      by (rewrite E'; rewrite E; reflexivity).
    assert (S1 : kp_srid p' = fold_left xor (map (fun j => open_srid (nth j (kp_r2 p) [])) (filter (fun j => negb (j =? kp_i p)%nat) (seq 0 (length (kp_r2 p))))) (kp_srid p))
      by (rewrite E; reflexivity).
    rewrite S2, S1, !fold_left_xor. apply xor_cancel.
    assert (B : forall l, (forall j, In j l -> (j < length (kp_r2 p))%nat) -> (length (xors (map (fun j => open_srid (nth j (kp_r2 p) [])) l)) <= length (kp_srid p))%nat).
    { induction l as [|j l IH]; intro Hl; cbn [map xors fold_right]; [cbn; lia|]. rewrite xor_length.
      specialize (Len j (Hl j (or_introl eq_refl))). specialize (IH (fun k Hk => Hl k (or_intror Hk))). unfold xors in IH. lia. }
    apply B. intros j Hj. apply filter_In in Hj. destruct Hj as [Hj _]. apply in_seq in Hj. lia.
  Qed.

  (** ** C16 (keygen): two round-3 responses with different challenges reveal the private key.  [z] and [z']
      are read from the two returned messages, the challenges are computable from public data. *)
  Theorem C16_keygen_round3_twice_reveals_key (L : curve_laws C) p res p' res' p'' :
    call KR3 p = Ret (res, p') -> r_ok res = true -> call KR3 p' = Ret (res', p'') -> r_ok res' = true ->
    (kp_i p < length (sv_pub (kp_save p)))%nat ->
    exists X A c c' x z z', kp_A p = Some A /\ sv_priv (kp_save p) = Some x /\ nth_error (sv_pub (kp_save p)) (kp_i p) = Some (Some X) /\
      kg_challenge C H (kp_ssid p) (kp_srid p') (kp_i p) X A = Ret c /\
      kg_challenge C H (kp_ssid p) (kp_srid p'') (kp_i p) X A = Ret c' /\
      r_data res = wire_bytes (CKg3 (to_be z) [] []) /\ r_data res' = wire_bytes (CKg3 (to_be z') [] []) /\
      forall w, (w * (c - c')) mod n = 1 -> x mod n = (w * (z - z')) mod n.
  Proof.
    intros R Ok R' Ok' HI. cbn [kop_run] in R, R'.
    destruct (r3_exec_inv C H p res p' R Ok) as (_ & r3 & X & A & c & t & x & E & EX & EA & Ec & Et & Ex & ED & _).
    destruct (r3_exec_inv C H p' res' p'' R' Ok') as (_ & r3' & X' & A' & c' & t' & x' & E' & EX' & EA' & Ec' & Et' & Ex' & ED' & _).
    assert (Own : forall q, nth_error (sv_pub (kp_save (r3_result q))) (kp_i q) = nth_error (sv_pub (kp_save q)) (kp_i q)).
    { intro q. unfold r3_result, r3_state. cbn [k_set_srid k_set_save k_set_payload kp_save set_pub sv_pub].
      rewrite fold_upd_nth, existsb_filter, Nat.eqb_refl. cbn [negb]. rewrite andb_false_r. reflexivity. }
    assert (EI : kp_i p' = kp_i p) by (rewrite E; reflexivity).
    assert (S1 : sv_pub (kp_save p') = sv_pub (kp_save (r3_result p))) by (rewrite E; reflexivity).
    rewrite (Own p') in EX'. rewrite EI, S1, EX in EX'. inversion EX'; subst X'. clear EX'.
    rewrite (Own p) in EX.
    assert (EA2 : kp_A p' = kp_A p) by (rewrite E; reflexivity). rewrite EA2, EA in EA'. inversion EA'; subst A'.
    assert (ET2 : kp_tau p' = kp_tau p) by (rewrite E; reflexivity). rewrite ET2, Et in Et'. inversion Et'; subst t'.
    assert (EXp : sv_priv (kp_save p') = sv_priv (kp_save p)) by (rewrite E; reflexivity). rewrite EXp, Ex in Ex'. inversion Ex'; subst x'.
    assert (Ess : kp_ssid p' = kp_ssid p) by (rewrite E; reflexivity).
    assert (Es1 : kp_srid p' = kp_srid (r3_result p)) by (rewrite E; reflexivity).
    assert (Es2 : kp_srid p'' = kp_srid (r3_result p')) by (rewrite E'; reflexivity).
    rewrite Ess, EI, <- Es2 in Ec'. rewrite <- Es1 in Ec.
    exists X, A, c, c', x, (sch_prove n t c x), (sch_prove n t c' x). repeat (split; [auto; fail|]).
    intros w Hw. pose proof (n_gt1 C L).
    assert (D : (sch_prove n t c x - sch_prove n t c' x) mod n = ((c - c') * x) mod n).
    { unfold sch_prove. rewrite <- Zminus_mod. f_equal. lia. }
    rewrite <- Z.mul_mod_idemp_r, D, Z.mul_mod_idemp_r by lia.
    replace (w * ((c - c') * x)) with (w * (c - c') * x) by lia. rewrite <- Z.mul_mod_idemp_l, Hw by lia. f_equal. lia.
  Qed.

  (** ** C10 (keygen): what a rejected message changes *)
  (** A message that is not valid base64 changes nothing. *)
  Theorem C10_keygen_bad_base64_no_change r from msg p : b64_dec msg = None ->
    call (KAcc r from msg) p = Ret (fail EB64, p).
  Proof. intro B. cbn [kop_run]. unfold kg_accept. rewrite B. reflexivity. Qed.
  (** Any accept call, successful or not, changes at most the one slot it names: the slots of the other
      rounds and of the other senders, the secrets and the key data are untouched. *)
  Theorem C10_keygen_accept_frame r from msg p res p' : (1 <= r <= 3)%nat -> call (KAcc r from msg) p = Ret (res, p') ->
    exists sl, p' = k_set_slots r sl p /\ length sl = length (k_slots r p) /\
      forall j, Z.of_nat j <> from -> nth_error sl j = nth_error (k_slots r p) j.
  Proof.
    intros Hr E. cbn [kop_run] in E. unfold kg_accept in E. destruct (b64_dec msg) as [w|].
    - destruct (store _ _ _) as [sl|] eqn:S; cbn [obind] in E; [|discriminate]. apply store_Ret in S. destruct S as [B ->].
      exists (upd (Z.to_nat from) w (k_slots r p)). split; [destruct (parse_wire w); [destruct (kg_type_ok r c)|]; congruence|].
      split; [apply upd_length|]. intros j Hj. apply nth_error_upd_diff. lia.
    - inversion E; subst. exists (k_slots r p'). split; [|auto]. destruct r as [|[|[|[|r]]]]; try lia; destruct p'; reflexivity.
  Qed.

  (** ** C11 (keygen): when exactly an accept call panics *)
  Theorem C11_keygen_accept_panics_iff r from msg p : 
    call (KAcc r from msg) p = Panic <->
    exists w, b64_dec msg = Some w /\
      (~ (0 <= from < Z.of_nat (length (k_slots r p))) \/ exists c, parse_wire w = Some c /\ kg_type_ok r c = false).
  Proof.
    cbn [kop_run]. unfold kg_accept. destruct (b64_dec msg) as [w|].
    2:{ split; [discriminate|]. intros (w & E & _). discriminate. }
    unfold store. destruct ((0 <=? from) && (from <? Z.of_nat (length (k_slots r p)))) eqn:B; cbn [obind].
    - split.
      + intro E. exists w. split; [reflexivity|]. right. destruct (parse_wire w) as [c|]; [|discriminate]. exists c. split; [reflexivity|].
        destruct (kg_type_ok r c); [discriminate|reflexivity].
      + intros (w' & Ew & [Q|(c & P & T)]); inversion Ew; subst w'; [exfalso; lia|]. rewrite P, T. reflexivity.
    - split; [|reflexivity]. intros _. exists w. split; [reflexivity|]. left. lia.
  Qed.

  (** ** C12 (keygen): Finish reports success exactly when every other party's slot is non-empty, i.e. exactly
      when for every other party the last base64-valid bytes handed to Accept were non-empty; and it never
      changes the session. *)
  Theorem C12_keygen_finish_iff N i pids root r0 p0 l p r : (i < N)%nat -> (1 <= r <= 3)%nat ->
    kg_new (Z.of_nat i) (Z.of_nat N) pids root = Ret (r0, Some p0) -> hist p0 l p -> real_ops l ->
    exists res, call (KFin r) p = Ret (res, p) /\
      (r_ok res = true <-> forall j, (j < N)%nat -> j <> i -> exists w, last_accept r j l = Some w /\ w <> []).
  Proof.
    intros Hi Hr New Hh RO. pose proof (new_wf _ _ _ _ _ _ Hi New) as W0.
    assert (Z0 : forall r j, (1 <= r <= 3)%nat -> (j < N)%nat -> j <> i -> nth_error (k_slots r p0) j = Some [])
      by (intros; apply (new_slots _ _ _ _ _ _ Hi New); auto).
    destruct (hist_inv C H N i p0 l p W0 Hh RO Z0) as [W S].
    cbn [kop_run]. unfold kg_finish. rewrite (wf_i _ _ _ W).
    assert (Key : first_missing (Some i) 0 (k_slots r p) = None <-> forall j, (j < N)%nat -> j <> i -> exists w, last_accept r j l = Some w /\ w <> []).
    { rewrite first_missing_none. split.
      - intros F j Hj Hji. specialize (F j _ (S r j Hr Hj Hji) Hji). destruct (last_accept r j l) as [w|]; [exists w; auto|congruence].
      - intros F k m Hm Hk. cbn in Hk. assert (Hk' : (k < N)%nat) by (apply nth_error_Some_lt in Hm; rewrite (wf_slots _ _ _ W) in Hm; exact Hm).
        rewrite (S r k Hr Hk' Hk) in Hm. destruct (F k Hk' Hk) as (w & Ew & Nw). rewrite Ew in Hm. inversion Hm; subst. exact Nw. }
    destruct (first_missing (Some i) 0 (k_slots r p)) as [j|].
    - exists (fail (EMissing j)). split; [reflexivity|]. split; [discriminate|]. intro F. apply Key in F. discriminate.
    - exists ok0. split; [reflexivity|]. split; [|reflexivity]. intros _. apply Key. reflexivity.
  Qed.
  (** the party named in a Finish failure really is missing *)
  Theorem C12_keygen_finish_names_missing N i pids root r0 p0 l p r res j : (i < N)%nat -> (1 <= r <= 3)%nat ->
    kg_new (Z.of_nat i) (Z.of_nat N) pids root = Ret (r0, Some p0) -> hist p0 l p -> real_ops l ->
    call (KFin r) p = Ret (res, p) -> r_err res = Some (EMissing j) ->
    (j < N)%nat /\ j <> i /\ (last_accept r j l = None \/ last_accept r j l = Some []).
  Proof.
    intros Hi Hr New Hh RO E Er. pose proof (new_wf _ _ _ _ _ _ Hi New) as W0.
    assert (Z0 : forall r j, (1 <= r <= 3)%nat -> (j < N)%nat -> j <> i -> nth_error (k_slots r p0) j = Some [])
      by (intros; apply (new_slots _ _ _ _ _ _ Hi New); auto).
    destruct (hist_inv C H N i p0 l p W0 Hh RO Z0) as [W S].
    cbn [kop_run] in E. unfold kg_finish in E. rewrite (wf_i _ _ _ W) in E.
    assert (G : forall l0 k0 j0, first_missing (Some i) k0 l0 = Some j0 -> (k0 <= j0 < k0 + length l0)%nat /\ j0 <> i /\ nth_error l0 (j0 - k0) = Some []).
    { induction l0 as [|m l0 IH]; intros k0 j0 F; cbn [first_missing] in F; [discriminate|].
      destruct (Nat.eqb_spec i k0) as [->|Ne].
      - destruct (IH _ _ F) as (B & Nj & Nth). cbn [length]. split; [lia|]. split; [exact Nj|]. replace (j0 - k0)%nat with (Datatypes.S (j0 - Datatypes.S k0)) by lia. exact Nth.
      - destruct m as [|b m].
        + inversion F; subst. cbn [length]. split; [lia|]. split; [congruence|]. rewrite Nat.sub_diag. reflexivity.
        + destruct (IH _ _ F) as (B & Nj & Nth). cbn [length]. split; [lia|]. split; [exact Nj|]. replace (j0 - k0)%nat with (Datatypes.S (j0 - Datatypes.S k0)) by lia. exact Nth. }
    destruct (first_missing (Some i) 0 (k_slots r p)) as [k|] eqn:F; [|inversion E; subst; discriminate].
    inversion E; subst res. cbn in Er. inversion Er; subst k. destruct (G _ _ _ F) as (B & Nj & Nth). rewrite (wf_slots _ _ _ W) in B.
    split; [lia|]. split; [exact Nj|]. rewrite Nat.sub_0_r, (S r j Hr ltac:(lia) Nj) in Nth.
    destruct (last_accept r j l) as [[|]|]; auto; discriminate.
  Qed.

  (** ** C14: the root key is never drawn at random.  Round 1 with any randomness uses the number given by the
      hex text handed to NewKeygenLocalParty; the random candidate [kr_x] has no influence. *)
  Theorem C14_root_key_never_random N i pids root r0 p0 rnd rnd' : (i < N)%nat ->
    kg_new (Z.of_nat i) (Z.of_nat N) pids root = Ret (r0, Some p0) ->
    kr_tau rnd = kr_tau rnd' -> kr_u rnd = kr_u rnd' -> kr_srid rnd = kr_srid rnd' ->
    call (KR1 rnd) p0 = call (KR1 rnd') p0.
  Proof.
    intros Hi New E1 E2 E3. destruct (kg_new_inv _ _ _ _ _ _ Hi New) as (ids & kb & _ & _ & _ & ->).
    cbn [kop_run]. unfold kg_r1_exec. cbn [set_priv new_save kp_save sv_priv]. rewrite E1, E2, E3. reflexivity.
  Qed.
  (** An omitted (empty) root key is not replaced by a random one: the party's private key is 0 and its public
      share is the neutral element, for every choice of randomness. *)
  Theorem C14_empty_root_key_refuted (L : curve_laws C) N i pids r0 p0 rnd res p1 : (i < N)%nat ->
    kg_new (Z.of_nat i) (Z.of_nat N) pids [] = Ret (r0, Some p0) -> call (KR1 rnd) p0 = Ret (res, p1) ->
    sv_priv (kp_save p1) = Some 0 /\ nth_error (sv_pub (kp_save p1)) i = Some (Some (c_id C)).
  Proof.
    intros Hi New R. destruct (kg_new_inv _ _ _ _ _ _ Hi New) as (ids & kb & _ & Hx & _ & ->).
    cbn in Hx. inversion Hx; subst kb. clear Hx. cbn [kop_run] in R. unfold kg_r1_exec in R.
    cbn [set_priv new_save kp_save sv_priv kp_i sv_pub kp_r1 kp_ids] in R. change (of_be []) with 0 in R. rewrite !base_mul_eq in R by auto.
    rewrite store_nat in R by (rewrite repeat_length; auto). cbn [obind] in R.
    destruct (idx _ _); cbn [obind] in R; [|discriminate]. destruct (store _ _ _); cbn [obind] in R; [|discriminate].
    inversion R; subst. cbn. split; [reflexivity|]. rewrite nth_error_upd_same by (rewrite repeat_length; auto). rewrite gmul_0; auto.
  Qed.

  (** ** C15: SaveChainCodes is all or nothing *)
  Theorem C15_chain_codes codes p :
    exists res p', call (KChn codes) p = Ret (res, p') /\
      (r_ok res = false -> p' = p) /\
      (r_ok res = true <->
         length (split (zb 124) codes) = length (sv_pub (kp_save p)) /\
         forall s, In s (split (zb 124) codes) -> parse_int 16 s <> None) /\
      (r_ok res = true -> p' = k_set_save (set_chain (Some (map (parse_int 16) (split (zb 124) codes))) (kp_save p)) p).
  Proof.
    cbn [kop_run]. unfold save_chain_codes. set (parts := split (zb 124) codes).
    assert (PC : forall l k, match parse_chain k l with
              | inl _ => exists s, In s l /\ parse_int 16 s = None
              | inr x => x = map (parse_int 16) l /\ forall s, In s l -> parse_int 16 s <> None end).
    { induction l as [|s l IH]; intro k; cbn [parse_chain]; [split; [reflexivity|intros ? []]|].
      destruct (parse_int 16 s) as [z|] eqn:P; [|exists s; split; [left; auto|auto]].
      specialize (IH (S k)). destruct (parse_chain (S k) l).
      - destruct IH as (s' & I & E). exists s'. split; [right; auto|auto].
      - destruct IH as (-> & F). split; [cbn; rewrite P; reflexivity|]. intros s' [<-|I]; [congruence|auto]. }
    specialize (PC parts 0%nat).
    destruct (Nat.eqb_spec (length parts) (length (sv_pub (kp_save p)))) as [E|E].
    - destruct (parse_chain 0 parts) as [j|x].
      + exists (fail (EChain j)), p. split; [reflexivity|]. split; [auto|]. split; [|discriminate].
        split; [discriminate|]. intros [_ F]. destruct PC as (s & I & N). exfalso. apply (F s I N).
      + destruct PC as (-> & F). do 2 eexists. split; [reflexivity|]. split; [discriminate|]. split; [|auto]. split; auto.
    - exists (fail ECount), p. split; [reflexivity|]. split; [auto|]. split; [|discriminate]. split; [discriminate|]. intros [Q _]. contradiction.
  Qed.
End Calls.

(** ** Concrete runs on the toy curve: two parties with ids 20 and 10; party 0 is driven, party 1's messages
    are computed. *)
Definition tp0 : kparty := ex_party 0.
Definition tp1 : kparty := ex_party 1.
Definition out_of (x : option (list (kop * res) * kparty)) (k : nat) : bytes :=
  match x with Some (l, _) => match nth_error l k with Some (_, r) => r_data r | None => [] end | None => [] end.
Definition state_of (x : option (list (kop * res) * kparty)) : kparty := match x with Some (_, p) => p | None => tp0 end.
Definition trun := run_ops toy toy_hash.

(** honest messages of the two parties, rounds 1 and 2 *)
Definition m1_0 := out_of (trun [KR1 (ex_rnd 0)] tp0) 0.
Definition m1_1 := out_of (trun [KR1 (ex_rnd 1)] tp1) 0.
Definition m2_0 := out_of (trun [KR1 (ex_rnd 0); KAcc 1 1 (b64_enc m1_1); KR2] tp0) 2.
Definition m2_1 := out_of (trun [KR1 (ex_rnd 1); KAcc 1 0 (b64_enc m1_0); KR2] tp1) 2.
Definition upto_r3 : list kop := [KR1 (ex_rnd 0); KAcc 1 1 (b64_enc m1_1); KR2; KAcc 2 1 (b64_enc m2_1)].

(** Each concrete run is a boolean test over a starting session, proved by computation, plus a lemma that
    reads the claim off the test. *)
Section Tests.
  Variable C : curve.
  Variable H : bytes -> bytes.
  Variable p0 : kparty.
  Notation hist := (k_hist C H).
  Notation call := (kop_run C H).
  Notation run := (run_ops C H).

  Definition retry_test (ops : list kop) : bool :=
    match run ops p0 with
    | Some (_, p) => match call KR3 p with
      | Ret (r, q) => match call KR3 q with
        | Ret (r', q') => r_ok r && r_ok r' && negb (bytes_eqb (r_data r) (r_data r')) && negb (bytes_eqb (kp_srid q) (kp_srid q'))
        | Panic => false end
      | Panic => false end
    | None => false end.
  Lemma retry_test_spec ops : retry_test ops = true -> exists l p r r' q q',
    hist p0 l p /\ call KR3 p = Ret (r, q) /\ r_ok r = true /\
    call KR3 q = Ret (r', q') /\ r_ok r' = true /\ r_data r <> r_data r' /\ kp_srid q <> kp_srid q'.
  Proof.
    unfold retry_test. intro T.
    destruct (run ops p0) as [[l p]|] eqn:D; [|discriminate].
    destruct (call KR3 p) as [[r q]|] eqn:E1; [|discriminate].
    destruct (call KR3 q) as [[r' q']|] eqn:E2; [|discriminate].
    rewrite !andb_true_iff, !negb_true_iff, !bytes_eqb_neq in T. destruct T as [[[T1 T2] T3] T4].
    exists l, p, r, r', q, q'. split; [eapply run_ops_hist; exact D|]. repeat (split; [assumption|]). assumption.
  Qed.

  Definition c10_test (ops : list kop) (bad : bytes) : bool :=
    match run ops p0 with
    | Some (l, p) =>
      match call (KAcc 1 1 bad) p, call KR2 p with
      | Ret (r, q), Ret (r2, _) => negb (r_ok r) && r_ok r2 && match call KR2 q with Ret (r3, _) => negb (r_ok r3) | Panic => false end
      | _, _ => false end
    | None => false end.
  Lemma c10_test_spec ops bad : c10_test ops bad = true -> exists l p r q r2 q2 r3 q3,
    hist p0 l p /\ call (KAcc 1 1 bad) p = Ret (r, q) /\ r_ok r = false /\
    call KR2 p = Ret (r2, q2) /\ r_ok r2 = true /\ call KR2 q = Ret (r3, q3) /\ r_ok r3 = false.
  Proof.
    unfold c10_test. intro T.
    destruct (run ops p0) as [[l p]|] eqn:D; [|discriminate].
    destruct (call (KAcc 1 1 bad) p) as [[r q]|] eqn:E1; [|discriminate].
    destruct (call KR2 p) as [[r2 q2]|] eqn:E2; [|discriminate].
    rewrite !andb_true_iff, !negb_true_iff in T. destruct T as [[T1 T2] T4].
    destruct (call KR2 q) as [[r3 q3]|] eqn:E3; [|discriminate]. rewrite negb_true_iff in T4.
    exists l, p, r, q, r2, q2, r3, q3. split; [eapply run_ops_hist; exact D|].
    repeat (split; [assumption|]). assumption.
  Qed.

  Definition c11_test (ops : list kop) (bad : bytes) : bool :=
    match run ops p0 with
    | Some (_, p) => match call (KAcc 1 1 bad) p with Panic => true | _ => false end
    | None => false end.
  Lemma c11_test_spec ops bad : c11_test ops bad = true -> exists l p, hist p0 l p /\ call (KAcc 1 1 bad) p = Panic.
  Proof.
    unfold c11_test. intro T. destruct (run ops p0) as [[l p]|] eqn:D; [|discriminate].
    destruct (call (KAcc 1 1 bad) p) as [|] eqn:E1; [discriminate|].
    exists l, p. split; [eapply run_ops_hist; exact D|exact E1].
  Qed.

  Definition c12_test (ops : list kop) : bool :=
    match run ops p0 with
    | Some (l, p) => forallb (fun x => negb (r_ok (snd x))) l &&
        match call (KFin 1) p with Ret (f, _) => r_ok f | Panic => false end
    | None => false end.
  Lemma c12_test_spec ops : c12_test ops = true -> exists l p f q,
    hist p0 l p /\ (forall o r, In (o, r) l -> r_ok r = false) /\ call (KFin 1) p = Ret (f, q) /\ r_ok f = true.
  Proof.
    unfold c12_test. intro T. destruct (run ops p0) as [[l p]|] eqn:D; [|discriminate].
    destruct (call (KFin 1) p) as [[f q]|] eqn:E; [|rewrite andb_false_r in T; discriminate].
    rewrite andb_true_iff in T. destruct T as [T1 T2].
    exists l, p, f, q. split; [eapply run_ops_hist; exact D|]. split; [|auto].
    intros o r Hin. rewrite forallb_forall in T1. specialize (T1 _ Hin). apply negb_true_iff in T1. exact T1.
  Qed.

  Definition c13_test (ops : list kop) (w3 : bytes) : bool :=
    match run ops p0 with
    | Some (_, p) =>
      match call KR3 p with
      | Ret (r3, q) => match r_err r3 with
        | Some (EHash 1) =>
          match call (KAcc 3 1 w3) q with
          | Ret (_, q1) => match call KR4 q1 with Ret (r4, _) => r_ok r4 | Panic => false end
          | Panic => false end
        | _ => false end
      | Panic => false end
    | None => false end.
  Lemma c13_test_spec ops w3 : c13_test ops w3 = true -> exists l p r3 q ra q1 r4 q2,
    hist p0 l p /\ call KR3 p = Ret (r3, q) /\ r_err r3 = Some (EHash 1) /\
    call (KAcc 3 1 w3) q = Ret (ra, q1) /\ call KR4 q1 = Ret (r4, q2) /\ r_ok r4 = true.
  Proof.
    unfold c13_test. intro T. destruct (run ops p0) as [[l p]|] eqn:D; [|discriminate].
    destruct (call KR3 p) as [[r3 q]|] eqn:E1; [|discriminate].
    destruct (r_err r3) as [er|] eqn:E2; [|discriminate].
    destruct er as [ | | | | j | | | j | | | j | j | j | j | | | | | | j | j | j | ]; try discriminate.
    destruct j as [|[|j]]; try discriminate.
    destruct (call (KAcc 3 1 w3) q) as [[ra q1]|] eqn:D1; [|discriminate].
    destruct (call KR4 q1) as [[r4 q2]|] eqn:E3; [|discriminate].
    exists l, p, r3, q, ra, q1, r4, q2. split; [eapply run_ops_hist; exact D|]. repeat (split; [assumption || reflexivity|]). assumption.
  Qed.

  (** a run that meets the hypotheses of C06, C07, C08 and C12 *)
  Definition full_test (ops1 ops2 ops3 : list kop) : bool :=
    match run ops1 p0 with
    | Some (_, p1) =>
      match call KR2 p1 with
      | Ret (r2, p2) =>
        match run ops2 p2 with
        | Some (_, p3) =>
          match call KR3 p3 with
          | Ret (r3, p4) =>
            match run ops3 p4 with
            | Some (_, p5) => match call KR4 p5 with Ret (r4, _) => r_ok r2 && r_ok r3 && r_ok r4 | Panic => false end
            | None => false end
          | Panic => false end
        | None => false end
      | Panic => false end
    | None => false end.
End Tests.

(** C09 (refuted): calling round 3 again with nothing changed in between gives a different message and a
    different srid. *)
Lemma retry_test_ok : retry_test toy toy_hash tp0 upto_r3 = true. Proof. vm_cast_no_check (eq_refl true). Qed.
Theorem C09_retry_not_idempotent_refuted : exists l p r r' q q',
  k_hist toy toy_hash tp0 l p /\
  kop_run toy toy_hash KR3 p = Ret (r, q) /\ r_ok r = true /\
  kop_run toy toy_hash KR3 q = Ret (r', q') /\ r_ok r' = true /\ r_data r <> r_data r' /\ kp_srid q <> kp_srid q'.
Proof. exact (retry_test_spec toy toy_hash tp0 upto_r3 retry_test_ok). Qed.

(** C10 (keygen, refuted): a message that is rejected as unparsable still replaces the good message stored
    before it: round 2 would have succeeded before the rejected message, and fails after it. *)
Lemma c10_test_ok : c10_test toy toy_hash tp0 [KR1 (ex_rnd 0); KAcc 1 1 (b64_enc m1_1)] (b64_enc (str "garbage")) = true.
Proof. vm_cast_no_check (eq_refl true). Qed.
Theorem C10_keygen_rejected_message_refuted : exists l p r q r2 q2 r3 q3,
  k_hist toy toy_hash tp0 l p /\ kop_run toy toy_hash (KAcc 1 1 (b64_enc (str "garbage"))) p = Ret (r, q) /\ r_ok r = false /\
  kop_run toy toy_hash KR2 p = Ret (r2, q2) /\ r_ok r2 = true /\ kop_run toy toy_hash KR2 q = Ret (r3, q3) /\ r_ok r3 = false.
Proof. exact (c10_test_spec toy toy_hash tp0 _ _ c10_test_ok). Qed.

(** C11 (keygen, refuted): a well-formed message of another round makes the process panic. *)
Lemma c11_test_ok : c11_test toy toy_hash tp0 [KR1 (ex_rnd 0)] (b64_enc m2_1) = true.
Proof. vm_cast_no_check (eq_refl true). Qed.
Theorem C11_keygen_accept_panic_refuted : exists l p,
  k_hist toy toy_hash tp0 l p /\ kop_run toy toy_hash (KAcc 1 1 (b64_enc m2_1)) p = Panic.
Proof. exact (c11_test_spec toy toy_hash tp0 _ _ c11_test_ok). Qed.

(** C12 (keygen, refuted half): Finish can report success although every accept call failed. *)
Lemma c12_test_ok : c12_test toy toy_hash tp0 [KAcc 1 1 (b64_enc (str "garbage"))] = true.
Proof. vm_cast_no_check (eq_refl true). Qed.
Theorem C12_keygen_finish_without_accepted_refuted : exists l p f q,
  k_hist toy toy_hash tp0 l p /\ (forall o r, In (o, r) l -> r_ok r = false) /\
  kop_run toy toy_hash (KFin 1) p = Ret (f, q) /\ r_ok f = true.
Proof. exact (c12_test_spec toy toy_hash tp0 _ c12_test_ok). Qed.

(** C13 (keygen, refuted): round 3 rejects party 1's opening (it does not match its commitment), and round 4
    nevertheless returns a key that includes party 1's share. *)
Definition bad1 : bytes := wire_bytes (CKg1 (str "not a commitment")).
Definition forged3 : bytes :=
  match base_mul toy 2835, base_mul toy 5 with
  | Some X, Some A =>
    match kg_challenge toy toy_hash kg_ssid (kr_srid (ex_rnd 0)) 1 X A with
    | Ret c => wire_bytes (CKg3 (to_be (sch_prove 11 5 c 2835)) [] [])
    | Panic => [] end
  | _, _ => [] end.
Lemma c13_test_ok : c13_test toy toy_hash tp0
  [KR1 (ex_rnd 0); KAcc 1 1 (b64_enc bad1); KR2; KAcc 2 1 (b64_enc m2_1)] (b64_enc forged3) = true.
Proof. vm_cast_no_check (eq_refl true). Qed.
Theorem C13_keygen_round4_after_failed_round3_refuted : exists l p r3 q ra q1 r4 q2,
  k_hist toy toy_hash tp0 l p /\ kop_run toy toy_hash KR3 p = Ret (r3, q) /\ r_err r3 = Some (EHash 1) /\
  kop_run toy toy_hash (KAcc 3 1 (b64_enc forged3)) q = Ret (ra, q1) /\ kop_run toy toy_hash KR4 q1 = Ret (r4, q2) /\ r_ok r4 = true.
Proof. exact (c13_test_spec toy toy_hash tp0 _ _ c13_test_ok). Qed.

(** ** Examples: the hypotheses of C06, C08, C09, C12 are met by an honest two-party run *)
Definition m3_1 := out_of (run_ops toy toy_hash [KR1 (ex_rnd 1); KAcc 1 0 (b64_enc m1_0); KR2; KAcc 2 0 (b64_enc m2_0); KR3] tp1) 4.
Theorem C06_C08_example : full_test toy toy_hash tp0 [KR1 (ex_rnd 0); KAcc 1 1 (b64_enc m1_1)] [KAcc 2 1 (b64_enc m2_1)] [KAcc 3 1 (b64_enc m3_1)] = true.
Proof. vm_cast_no_check (eq_refl true). Qed.
Example tp0_is_new : exists r, kg_new (Z.of_nat 0) (Z.of_nat 2) ex_pids (ex_roots 0) = Ret (r, Some tp0).
Proof. exists ok0. vm_compute. reflexivity. Qed.
