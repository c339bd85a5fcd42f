(** PropSignEx.v -- C13, C16 (signing), C43, and concrete signing sessions: examples meeting the hypotheses of the theorems of
    PropSign.v, and counterexamples. *)
From Verif Require Import Base BigInt HashFrame Text Wire Messages PartyID Curve Json Save Keygen KeygenNet NumTh Paillier RangeProofs PropRange Ckd PropCkd Subset Onsign OnsignEnc OnsignHist PropSubset PropSign SignEx.

Section C16.
  Variables (C : curve) (D : edlib) (B S5 : bytes -> bytes).
  Notation call := (sop_run C D B S5).
  Notation hist := (s_hist C D B S5).
  Notation n := (c_n C).
  Lemma op_k o p res p' : call o p = Ret (res, p') -> (forall r, o <> SR1 r) -> sp_k p' = sp_k p.
  Proof.
    intros E N1. destruct o as [r|d|z| |to|to|r from msg|r]; [destruct (N1 r eq_refl)|..].
    - cbn [sop_run] in E. apply r2_frame in E. destruct E as (? & ? & ? & _ & _ & _ & _ & ->). reflexivity.
    - cbn [sop_run] in E. apply r3_frame in E. destruct E as (si & r & r3 & _ & _ & ->). reflexivity.
    - cbn [sop_run] in E. apply final_frame in E. destruct E as (d & ->). reflexivity.
    - cbn [sop_run] in E. unfold sg_get1 in E. destruct (idx _ _); cbn [obind] in E; [|discriminate]. inversion E; subst; auto.
    - cbn [sop_run] in E. unfold sg_get2 in E. destruct (idx _ _); cbn [obind] in E; [|discriminate]. inversion E; subst; auto.
    - apply C10_sign_accept_frame in E. destruct E as (k & sl & _ & -> & _). destruct k; auto.
    - assert (P : p' = p).
      { destruct r as [|[|[|r]]]; cbn [sop_run] in E; unfold sg_finish1, sg_finish2, sg_finish3 in E;
          try (destruct (s1_missing _ _ _); cbn [obind] in E; [|discriminate]); inversion E; reflexivity. }
      subst; auto.
  Qed.
  Lemma hist_k p0 l p : hist p0 l p -> (forall o r, In (o, r) l -> forall x, o <> SR1 x) -> sp_k p = sp_k p0.
  Proof.
    induction 1 as [p|p l p1 o res p2 Hh IH Run]; intro NI; [auto|].
    rewrite (op_k _ _ _ _ Run), IH; auto.
    - intros o' r' Hin. apply (NI o' r'). apply in_or_app; left; exact Hin.
    - apply (NI o res). apply in_or_app; right; left; reflexivity.
  Qed.

  (** ** C16 (signing): if round 3 returns a partial signature twice without round 1 (the only call that draws a nonce) in
      between, the two published values s, s' and the two public challenges lam, lam' satisfy s - s' = (lam - lam') x, and
      x is computed from them as soon as lam - lam' is invertible.  x is the (derived) secret share of the session. *)
  Theorem C16_sign_two_partial_signatures_reveal_share N i z z' p res p1 l p2 res' p3 :
    curve_laws C -> swf N i p -> (forall j, z j mod ed_p D <> 0) -> (forall j, z' j mod ed_p D <> 0) ->
    call (SR3 z) p = Ret (res, p1) -> r_ok res = true ->
    hist p1 l p2 -> (forall o r, In (o, r) l -> forall x, o <> SR1 x) ->
    call (SR3 z') p2 = Ret (res', p3) -> r_ok res' = true ->
    exists R R' A A' s s' lam lam',
      sp_r p1 = Some (of_le (ge_bytes R)) /\ sp_r p3 = Some (of_le (ge_bytes R')) /\
      sv_ed (sp_save p) = Some A /\ sv_ed (sp_save p2) = Some A' /\
      lam = of_le (S5 (ge_bytes R ++ point_enc D A ++ to_be (sp_m p))) mod n /\
      lam' = of_le (S5 (ge_bytes R' ++ point_enc D A' ++ to_be (sp_m p))) mod n /\
      r_data res = wire_bytes (CS3 (to_be s)) /\ r_data res' = wire_bytes (CS3 (to_be s')) /\ 0 <= s < n /\ 0 <= s' < n /\
      let x := of_le (big_enc_opt (sv_priv (sp_save p))) in
      (s - s') mod n = ((lam - lam') * x) mod n /\
      forall w, (w * (lam - lam')) mod n = 1 -> x mod n = (w * (s - s')) mod n.
  Proof.
    intros L W Hz Hz' E Ok Hh NI E' Ok'. pose proof (n_gt1 C L) as Hn. pose proof (cl_n_range C L) as Hr.
    destruct (C20_round3_needs_nonce_proofs C D B S5 N i z p res p1 W Hz E Ok) as (Q & A & _ & EA & F). specialize (F Hr).
    assert (W1 : swf N i p1) by apply (sop_frame C D B S5 _ _ _ _ N i E W).
    assert (W2 : swf N i p2). { clear - Hh W1. induction Hh as [p|p l p1 o res p2 Hh IH Run]; [exact W1|]. apply (sop_frame C D B S5 _ _ _ _ N i Run). apply IH. exact W1. }
    destruct (C20_round3_needs_nonce_proofs C D B S5 N i z' p2 res' p3 W2 Hz' E' Ok') as (Q' & A' & _ & EA' & F'). specialize (F' Hr).
    cbv zeta in F, F'. destruct F as (F1 & F2 & _), F' as (F1' & F2' & _).
    assert (Ek : sp_k p2 = sp_k p). { rewrite (hist_k _ _ _ Hh NI). apply (op_k _ _ _ _ E). discriminate. }
    destruct (sop_consts _ _ _ _ _ _ _ _ E) as [(_ & _ & M1 & P1 & _) _]. destruct (hist_consts _ _ _ _ _ _ _ Hh) as [(_ & _ & M2 & P2 & _) _].
    rewrite Ek, P2, P1, M2, M1 in F1'. rewrite Ek in F2'.
    set (k := of_le (big_enc_opt (sp_k p))) in *. set (x := of_le (big_enc_opt (sv_priv (sp_save p)))) in *.
    set (R := fold_left (c_add C) (map Q (others i N)) (c_smul C (c_g C) k)) in *.
    set (R' := fold_left (c_add C) (map Q' (others i N)) (c_smul C (c_g C) k)) in *.
    set (lam := of_le (S5 (ge_bytes R ++ point_enc D A ++ to_be (sp_m p))) mod n) in *.
    set (lam' := of_le (S5 (ge_bytes R' ++ point_enc D A' ++ to_be (sp_m p))) mod n) in *.
    assert (Dif : ((lam * x + k) mod n - (lam' * x + k) mod n) mod n = ((lam - lam') * x) mod n).
    { rewrite <- Zminus_mod. f_equal. lia. }
    exists R, R', A, A', ((lam * x + k) mod n), ((lam' * x + k) mod n), lam, lam'.
    split; [exact F2|]. split; [exact F2'|]. split; [exact EA|]. split; [exact EA'|]. split; [reflexivity|]. split; [reflexivity|].
    split; [exact F1|]. split; [exact F1'|]. split; [apply Z.mod_pos_bound; lia|]. split; [apply Z.mod_pos_bound; lia|].
    cbv zeta. split; [exact Dif|]. intros w Hw. rewrite <- Z.mul_mod_idemp_r, Dif, Z.mul_mod_idemp_r by lia.
    replace (w * ((lam - lam') * x)) with (w * (lam - lam') * x) by lia. rewrite <- Z.mul_mod_idemp_l, Hw by lia. f_equal. lia.
  Qed.
End C16.

(** ** C43 *)
(** the 673-byte record of party i inside a payload: 1376 bytes of header, then one record per party; in it 33 bytes, then
    N (256 bytes), then the Pedersen parameters N^, s, t (128 bytes each) *)
Definition bytes_at (l : bytes) (a len : nat) : bytes := firstn len (skipn a l).
Definition record_N (payload : bytes) (i : nat) : Z := of_be (bytes_at payload (1376 + 673 * i + 33) 256).
Definition record_ped (payload : bytes) (i : nat) : pedpk :=
  {| pd_n := Some (of_be (bytes_at payload (1376 + 673 * i + 289) 128)); pd_s := Some (of_be (bytes_at payload (1376 + 673 * i + 417) 128));
     pd_t := Some (of_be (bytes_at payload (1376 + 673 * i + 545) 128)) |}.
Lemma slice_at l tail a b : 0 <= a <= b -> (Z.to_nat b <= length l)%nat ->
  slice (l ++ tail) a b = Ret (bytes_at l (Z.to_nat a) (Z.to_nat (b - a))).
Proof.
  intros H1 H2. unfold slice. rewrite app_length.
  destruct (Z.leb_spec 0 a); [|lia]. destruct (Z.leb_spec a b); [|lia]. cbn [andb].
  destruct (Z.leb_spec b (Z.of_nat (length l + length tail))); [|lia].
  unfold bytes_at. f_equal. rewrite skipn_app, firstn_app. 
  replace (Z.to_nat (b - a) - length (skipn (Z.to_nat a) l))%nat with 0%nat by (rewrite skipn_length; lia).
  rewrite firstn_O, app_nil_r. reflexivity.
Qed.
Lemma refresh_rec_ok payload tail i : (1376 + 673 * (i + 1) <= length payload)%nat ->
  refresh_rec (payload ++ tail) i = Ret (Some (Some (record_N payload i)), Some (record_ped payload i)).
Proof.
  intro H. unfold refresh_rec. rewrite !slice_at by lia. cbn [obind]. unfold record_N, record_ped.
  replace (Z.to_nat (1376 + 673 * Z.of_nat i + 33)) with (1376 + 673 * i + 33)%nat by lia.
  replace (Z.to_nat (1376 + 673 * Z.of_nat i + 289)) with (1376 + 673 * i + 289)%nat by lia.
  replace (Z.to_nat (1376 + 673 * Z.of_nat i + 417)) with (1376 + 673 * i + 417)%nat by lia.
  replace (Z.to_nat (1376 + 673 * Z.of_nat i + 545)) with (1376 + 673 * i + 545)%nat by lia.
  replace (1376 + 673 * Z.of_nat i + 289 - (1376 + 673 * Z.of_nat i + 33)) with 256 by lia.
  replace (1376 + 673 * Z.of_nat i + 417 - (1376 + 673 * Z.of_nat i + 289)) with 128 by lia.
  replace (1376 + 673 * Z.of_nat i + 545 - (1376 + 673 * Z.of_nat i + 417)) with 128 by lia.
  replace (1376 + 673 * Z.of_nat i + 673 - (1376 + 673 * Z.of_nat i + 545)) with 128 by lia.
  reflexivity.
Qed.
Lemma refresh_recs_ok payload tail a N : (1376 + 673 * (a + N) <= length payload)%nat ->
  refresh_recs (payload ++ tail) (seq a N) =
    Ret (map (fun i => Some (Some (record_N payload i))) (seq a N), map (fun i => Some (record_ped payload i)) (seq a N)).
Proof.
  revert a; induction N as [|N IH]; intros a H; [reflexivity|]. cbn [seq refresh_recs map].
  rewrite refresh_rec_ok by lia. cbn [obind]. rewrite IH by lia. reflexivity.
Qed.
Lemma derive_pubs_length C HM ded path l : forall cc pubs, derive_pubs C HM ded cc path l = Ret pubs -> length pubs = length l.
Proof.
  induction l as [|x l IH]; intros cc pubs E.
  { assert (pubs = []) by (destruct cc; cbn in E; congruence). subst. reflexivity. }
  destruct cc as [|[c0|] cc]; cbn [derive_pubs] in E; (destruct x as [x|]; [|discriminate E]); try discriminate E. cbn [obind deref] in E.
  destruct (derive_pub _ _ _ _ _ _) as [Y|]; [|discriminate E]. cbn [obind] in E.
  destruct (derive_pubs _ _ _ cc _ l) as [ys|] eqn:E1; [|discriminate E]. cbn [obind] in E.
  assert (pubs = Some Y :: ys) by congruence. subst. cbn. f_equal. eapply IH; eauto.
Qed.
(** If the payload is long enough for all parties, a new session holds for the signer at position t exactly the Paillier
    modulus and Pedersen parameters of the record at the position its id was saved at; whatever lies behind the payload
    in memory ([spare]) plays no role. *)
Theorem C43_each_party_its_record_partial C HM spare N i pids msg kd rf path res p kb keys ks ids sel payload : (i < N)%nat ->
  sg_new C HM spare (Z.of_nat i) (Z.of_nat N) pids msg kd rf path = Ret (res, Some p) ->
  b64_dec kd = Some kb -> save_dec C kb = Some keys -> sv_ks keys = map Some ks -> length ks = N ->
  Sorted.StronglySorted Z.lt ks -> Forall (fun k => 0 <= k) ks -> length (sv_pub keys) = N ->
  make_ids (Z.of_nat N) pids = Ret ids -> signers ids sel -> (forall k, In k sel -> In k ks) ->
  hex_dec rf = Some payload -> (1376 + 673 * N <= length payload)%nat ->
  forall t k s, nth_error sel t = Some k -> nth_error ks s = Some k ->
    nth_error (sv_pks (sp_save p)) t = Some (Some (Some (record_N payload s))) /\
    nth_error (sv_peds (sp_save p)) t = Some (Some (record_ped payload s)).
Proof.
  intros Hi New Ekb Ek Eks Lk Asc Nn Lp Eids Sg Inc Hx Len t k s Ht Hs.
  destruct (sg_new_inv _ _ _ _ _ _ _ _ _ _ _ _ Hi New) as (ids' & kb' & keys' & c & priv & X & ded & ch & pubs & rfb & pks & peds & kp & src' & m & M & Kb & Ks & _ & _ & _ & _ & _ & _ & Dp & Hx' & Rf & Bs & _ & _ & P0).
  rewrite Ekb in Kb. injection Kb as <-. rewrite Ek in Ks. injection Ks as <-. rewrite Eids in M. injection M as <-.
  rewrite Hx in Hx'. injection Hx' as <-. rewrite (refresh_recs_ok payload (spare rf) 0 N) in Rf by lia. injection Rf as <- <-.
  assert (LP : length pubs = N) by (rewrite <- Lp; exact (derive_pubs_length _ _ _ _ _ _ _ Dp)).
  set (src := set_peds _ _) in Bs.
  assert (SF : saved_for src ks).
  { constructor; cbn; auto; [congruence|rewrite map_length, seq_length; auto|rewrite map_length, seq_length; auto]. }
  destruct (C21_each_signer_partial src ks ids sel SF Sg Inc) as (kp' & src'' & E & A & _). rewrite Bs in E. injection E as <- _.
  destruct (A t k s Ht Hs) as (_ & _ & A3 & A4). subst p. cbn [sp_save]. rewrite A3, A4. cbn.
  assert (Hs' : (s < N)%nat) by (rewrite <- Lk; apply nth_error_Some; congruence).
  rewrite (map_nth_error _ s (seq 0 N) (d := s)) by (rewrite (nth_error_nth' _ 0%nat) by (rewrite seq_length; exact Hs'); rewrite seq_nth by exact Hs'; reflexivity).
  split; [reflexivity|].
  rewrite (map_nth_error _ s (seq 0 N) (d := s)) by (rewrite (nth_error_nth' _ 0%nat) by (rewrite seq_length; exact Hs'); rewrite seq_nth by exact Hs'; reflexivity).
  reflexivity.
Qed.
(** records never overlap, and lie behind the header *)
Theorem C43_records_disjoint i j : i <> j -> (1376 <= 1376 + 673 * i)%nat /\
  (1376 + 673 * i + 673 <= 1376 + 673 * j \/ 1376 + 673 * j + 673 <= 1376 + 673 * i)%nat.
Proof. lia. Qed.
(** 'short payloads are rejected with an error' is false.  With the in-place hex decoder of Go 1.21 a payload that is not
    even as long as its header is accepted, and the session then uses the characters of the hex text as keys; with a
    decoder that allocates exactly, a short payload crashes the process. *)
Definition short_refresh : bytes := hex_enc (repeat (zb 0) 1400).
Definition short_new (spare : bytes -> bytes) : outcome (res * option sparty) :=
  sg_new toy2 toy_hmac spare 0 2 [str "21"; str "22"] se_msg (b64_enc (save_enc (se_save 5))) short_refresh se_path.
Definition short_test (a b : outcome (res * option sparty)) : bool :=
  match a, b with
  | Ret (r, Some p), Panic => r_ok r && match sv_pks (sp_save p) with _ :: Some (Some N) :: [] => (N =? of_be (repeat (zb 48) 256)) | _ => false end
  | _, _ => false end.
Lemma short_spec a b : short_test a b = true ->
  (exists r p, a = Ret (r, Some p) /\ r_ok r = true /\
     nth_error (sv_pks (sp_save p)) 1 = Some (Some (Some (of_be (repeat (zb 48) 256))))) /\ b = Panic.
Proof.
  intro T. destruct a as [[r [p|]]|]; try discriminate T. destruct b as [|]; [discriminate T|]. split; [|reflexivity].
  unfold short_test in T. apply andb_prop in T. destruct T as [T1 T2]. exists r, p. split; [reflexivity|]. split; [exact T1|].
  destruct (sv_pks (sp_save p)) as [|a [|[[N|]|] [|c l]]]; try discriminate T2. apply Z.eqb_eq in T2. cbn [nth_error]. congruence.
Qed.
Lemma short_test_ok : short_test (short_new go121_spare) (short_new (fun _ => [])) = true. Proof. vm_cast_no_check (eq_refl true). Qed.
Theorem C43_short_payload_refuted : exists payload, hex_dec short_refresh = Some payload /\ (length payload < 1376 + 673 * 2)%nat /\
  (exists r p, short_new go121_spare = Ret (r, Some p) /\ r_ok r = true /\
     nth_error (sv_pks (sp_save p)) 1 = Some (Some (Some (of_be (repeat (zb 48) 256))))) /\
  short_new (fun _ => []) = Panic.
Proof.
  exists (repeat (zb 0) 1400). split; [apply hex_roundtrip|]. split; [rewrite repeat_length; lia|].
  exact (short_spec _ _ short_test_ok).
Qed.
(** the concrete session meets the hypotheses of the positive theorem *)
Theorem C43_example : exists payload, hex_dec se_refresh = Some payload /\ (1376 + 673 * 2 <= length payload)%nat /\
  se_new 0 5 se_msg se_refresh = Ret (ok0, Some se_party0) /\ sv_pks (sp_save se_party0) = [Some (Some 143); Some (Some 187)].
Proof.
  exists (repeat (zb 0) 1376 ++ se_rec 143 ++ se_rec 187). split; [apply hex_roundtrip|].
  split; [|split; [exact se_party0_new|reflexivity]].
  rewrite !app_length, repeat_length. unfold se_rec. rewrite !app_length, !repeat_length. rewrite !be_fixed_length. lia.
Qed.

(** ** Concrete histories of one session *)
Section Tests.
  Variables (C : curve) (D : edlib) (B S5 : bytes -> bytes).
  Notation call := (sop_run C D B S5).
  Notation hist := (s_hist C D B S5).
  Notation run := (s_run C D B S5).
  Variable p0 : sparty.
  Variable z : nat -> Z.

  Definition t10 (ops : list sop) (bad : bytes) : bool :=
    match run ops p0 with
    | Some (l, p) =>
      match call (SAcc 2 1 bad) p, call (SR3 z) p with
      | Ret (r, q), Ret (r2, _) => negb (r_ok r) && r_ok r2 && match call (SR3 z) q with Ret (r3, _) => negb (r_ok r3) | Panic => false end
      | _, _ => false end
    | None => false end.
  Lemma t10_spec ops bad : t10 ops bad = true -> exists l p r q r2 q2 r3 q3,
    hist p0 l p /\ call (SAcc 2 1 bad) p = Ret (r, q) /\ r_ok r = false /\
    call (SR3 z) p = Ret (r2, q2) /\ r_ok r2 = true /\ call (SR3 z) q = Ret (r3, q3) /\ r_ok r3 = false.
  Proof.
    unfold t10. intro T.
    destruct (run ops p0) as [[l p]|] eqn:R; [|discriminate].
    destruct (call (SAcc 2 1 bad) p) as [[r q]|] eqn:E1; [|discriminate].
    destruct (call (SR3 z) p) as [[r2 q2]|] eqn:E2; [|discriminate].
    rewrite !andb_true_iff, !negb_true_iff in T. destruct T as [[T1 T2] T4].
    destruct (call (SR3 z) q) as [[r3 q3]|] eqn:E3; [|discriminate]. rewrite negb_true_iff in T4.
    exists l, p, r, q, r2, q2, r3, q3. split; [eapply s_run_hist; exact R|]. repeat (split; [assumption|]). assumption.
  Qed.
  Definition t12 (ops : list sop) : bool :=
    match run ops p0 with
    | Some (l, p) => forallb (fun x => negb (r_ok (snd x))) l &&
        match call (SFin 2) p, call (SFin 3) p with Ret (f, _), Ret (f3, _) => r_ok f && r_ok f3 | _, _ => false end
    | None => false end.
  Lemma t12_spec ops : t12 ops = true -> exists l p f q f3 q3,
    hist p0 l p /\ (forall o r, In (o, r) l -> r_ok r = false) /\ call (SFin 2) p = Ret (f, q) /\ r_ok f = true /\ call (SFin 3) p = Ret (f3, q3) /\ r_ok f3 = true.
  Proof.
    unfold t12. intro T. destruct (run ops p0) as [[l p]|] eqn:R; [|discriminate].
    destruct (call (SFin 2) p) as [[f q]|] eqn:E; [|rewrite andb_false_r in T; discriminate].
    destruct (call (SFin 3) p) as [[f3 q3]|] eqn:E3; [|rewrite andb_false_r in T; discriminate].
    rewrite !andb_true_iff in T. destruct T as [T1 [T2 T3]].
    exists l, p, f, q, f3, q3. split; [eapply s_run_hist; exact R|]. split; [|auto].
    intros o r Hin. rewrite forallb_forall in T1. specialize (T1 _ Hin). apply negb_true_iff in T1. exact T1.
  Qed.
  Variable d : nat -> pdraws.
  Definition t13 (ops : list sop) (w : bytes) : bool :=
    match run ops p0 with
    | Some (_, p) =>
      match call (SR2 d) p with
      | Ret (r2, q) => match r_err r2 with
        | Some (EEncProof 1) =>
          match call (SAcc 2 1 w) q with
          | Ret (_, q1) => match call (SR3 z) q1 with Ret (r3, _) => r_ok r3 | Panic => false end
          | Panic => false end
        | _ => false end
      | Panic => false end
    | None => false end.
  Lemma t13_spec ops w : t13 ops w = true -> exists l p r2 q ra q1 r3 q2,
    hist p0 l p /\ call (SR2 d) p = Ret (r2, q) /\ r_err r2 = Some (EEncProof 1) /\
    call (SAcc 2 1 w) q = Ret (ra, q1) /\ call (SR3 z) q1 = Ret (r3, q2) /\ r_ok r3 = true.
  Proof.
    unfold t13. intro T. destruct (run ops p0) as [[l p]|] eqn:R; [|discriminate].
    destruct (call (SR2 d) p) as [[r2 q]|] eqn:E1; [|discriminate].
    destruct (r_err r2) as [er|] eqn:E2; [|discriminate].
    assert (Q : er = EEncProof 1) by (destruct er as [ | | | | j | | | j | | | j | j | j | j | | | | | | j | j | j | ]; try discriminate; destruct j as [|[|j]]; try discriminate; reflexivity).
    subst er.
    destruct (call (SAcc 2 1 w) q) as [[ra q1]|] eqn:D1; [|discriminate].
    destruct (call (SR3 z) q1) as [[r3 q2]|] eqn:E3; [|discriminate].
    exists l, p, r2, q, ra, q1, r3, q2. split; [eapply s_run_hist; exact R|]. repeat (split; [assumption || reflexivity|]). assumption.
  Qed.
  Definition no_r1 (o : sop) : bool := match o with SR1 _ => false | _ => true end.
  Definition t16 (ops again : list sop) : bool :=
    match run ops p0 with
    | Some (_, p) =>
      match call (SR3 z) p with
      | Ret (r, q) => match run again q with
        | Some (l, q1) => forallb (fun x => no_r1 (fst x)) l &&
            match call (SR3 z) q1 with Ret (r', q2) => r_ok r && r_ok r' && negb (bytes_eqb (r_data r) (r_data r')) | Panic => false end
        | None => false end
      | Panic => false end
    | None => false end.
  Lemma t16_spec ops again : t16 ops again = true -> exists l p r q l' q1 r' q2,
    hist p0 l p /\ call (SR3 z) p = Ret (r, q) /\ r_ok r = true /\
    hist q l' q1 /\ (forall o x, In (o, x) l' -> forall y, o <> SR1 y) /\
    call (SR3 z) q1 = Ret (r', q2) /\ r_ok r' = true /\ r_data r <> r_data r'.
  Proof.
    unfold t16. intro T. destruct (run ops p0) as [[l p]|] eqn:R; [|discriminate].
    destruct (call (SR3 z) p) as [[r q]|] eqn:E1; [|discriminate].
    destruct (run again q) as [[l' q1]|] eqn:R1; [|discriminate].
    apply andb_prop in T. destruct T as [T0 T].
    destruct (call (SR3 z) q1) as [[r' q2]|] eqn:E2; [|discriminate].
    rewrite !andb_true_iff, negb_true_iff, bytes_eqb_neq in T. destruct T as [[T1 T2] T3].
    exists l, p, r, q, l', q1, r', q2. split; [eapply s_run_hist; exact R|]. split; [exact E1|]. split; [exact T1|].
    split; [eapply s_run_hist; exact R1|]. split; [|auto].
    intros o x Hin y ->. rewrite forallb_forall in T0. specialize (T0 _ Hin). discriminate.
  Qed.
  (** a complete successful run whose returned message differs from [m] *)
  Definition tfull (ops : list sop) (m : bytes) : bool :=
    match run ops p0 with
    | Some (l, p) => forallb (fun x => r_ok (snd x)) l &&
        match call SFinal p with Ret (r, q) => r_ok r && negb (bytes_eqb (sg_M (sp_data q)) m) | Panic => false end
    | None => false end.
  Lemma tfull_spec ops m : tfull ops m = true -> exists l p r q,
    hist p0 l p /\ (forall o x, In (o, x) l -> r_ok x = true) /\ call SFinal p = Ret (r, q) /\ r_ok r = true /\ sg_M (sp_data q) <> m.
  Proof.
    unfold tfull. intro T. destruct (run ops p0) as [[l p]|] eqn:R; [|discriminate].
    apply andb_prop in T. destruct T as [T0 T]. destruct (call SFinal p) as [[r q]|] eqn:E; [|discriminate].
    rewrite andb_true_iff, negb_true_iff, bytes_eqb_neq in T. destruct T as [T1 T2].
    exists l, p, r, q. split; [eapply s_run_hist; exact R|]. split; [|auto].
    intros o x Hin. rewrite forallb_forall in T0. exact (T0 _ Hin).
  Qed.
End Tests.

Definition se_prefix2 : list sop := se_ops1 ++ [SR2 se_draws; SAcc 2 1 m2_1].
(** C10 (signing, refuted): a round-2 message that is rejected replaces the good one stored before it: round 3 would have
    succeeded before the rejected message and fails after it. *)
Lemma t10_ok : t10 toy2 toyD ex_hash se_hash64 se_party0 se_z se_prefix2 garbage = true. Proof. vm_cast_no_check (eq_refl true). Qed.
Theorem C10_sign_round2_rejected_refuted : exists l p r q r2 q2 r3 q3,
  se_new 0 5 se_msg se_refresh = Ret (ok0, Some se_party0) /\
  se_hist se_party0 l p /\ se_call (SAcc 2 1 garbage) p = Ret (r, q) /\ r_ok r = false /\
  se_call (SR3 se_z) p = Ret (r2, q2) /\ r_ok r2 = true /\ se_call (SR3 se_z) q = Ret (r3, q3) /\ r_ok r3 = false.
Proof.
  destruct (t10_spec _ _ _ _ _ _ _ _ t10_ok) as (l & p & r & q & r2 & q2 & r3 & q3 & H).
  exists l, p, r, q, r2, q2, r3, q3. split; [exact se_party0_new|exact H].
Qed.
(** C12 (signing, refuted half): Finish of rounds 2 and 3 can report success although every Accept call failed. *)
Lemma t12_ok : t12 toy2 toyD ex_hash se_hash64 se_party0 [SAcc 2 0 garbage; SAcc 2 1 garbage; SAcc 3 0 garbage; SAcc 3 1 garbage] = true.
Proof. vm_cast_no_check (eq_refl true). Qed.
Theorem C12_sign_finish_without_accepted_refuted : exists l p f q f3 q3,
  se_hist se_party0 l p /\ (forall o r, In (o, r) l -> r_ok r = false) /\
  se_call (SFin 2) p = Ret (f, q) /\ r_ok f = true /\ se_call (SFin 3) p = Ret (f3, q3) /\ r_ok f3 = true.
Proof. exact (t12_spec _ _ _ _ _ _ t12_ok). Qed.
(** C13 (signing, refuted): round 2 rejects party 1's range proof, and round 3 nevertheless returns a partial signature
    with party 1's nonce in it. *)
Definition se_bad1 : list sop := [se_r1 8 5; SAcc 1 1 m11_1; SAcc 1 1 m12_1b].
Lemma t13_ok : t13 toy2 toyD ex_hash se_hash64 se_party0 se_z se_draws se_bad1 m2_1 = true. Proof. vm_cast_no_check (eq_refl true). Qed.
Theorem C13_sign_round3_after_failed_round2_refuted : exists l p r2 q ra q1 r3 q2,
  se_hist se_party0 l p /\ se_call (SR2 se_draws) p = Ret (r2, q) /\ r_err r2 = Some (EEncProof 1) /\
  se_call (SAcc 2 1 m2_1) q = Ret (ra, q1) /\ se_call (SR3 se_z) q1 = Ret (r3, q2) /\ r_ok r3 = true.
Proof. exact (t13_spec _ _ _ _ _ _ _ _ _ t13_ok). Qed.
(** C16 (signing, refuted): a party that is asked to run rounds 2 and 3 again with a new message of its peer returns a
    second, different partial signature under the same nonce. *)
Lemma t16_ok : t16 toy2 toyD ex_hash se_hash64 se_party0 se_z se_ops2 se_again = true. Proof. vm_cast_no_check (eq_refl true). Qed.
Theorem C16_sign_nonce_reused_refuted : exists l p r q l' q1 r' q2,
  se_hist se_party0 l p /\ se_call (SR3 se_z) p = Ret (r, q) /\ r_ok r = true /\
  se_hist q l' q1 /\ (forall o x, In (o, x) l' -> forall y, o <> SR1 y) /\
  se_call (SR3 se_z) q1 = Ret (r', q2) /\ r_ok r' = true /\ r_data r <> r_data r'.
Proof. exact (t16_spec _ _ _ _ _ _ _ _ t16_ok). Qed.
(** C17, C19, C20: an honest session on the 88-point group meets the hypotheses of their theorems; every call returns Ok.
    C19 (refuted): the message given was 00 41 (hex), the message signed is not. *)
Lemma tfull_ok : tfull toy2 toyD ex_hash se_hash64 se_party0 se_ops3 [zb 0; zb 65] = true. Proof. vm_cast_no_check (eq_refl true). Qed.
Theorem C17_C20_example : curve_laws toy2 /\ ed_laws toy2 toyD /\ swf 2 0 se_party0 /\ (forall j, se_z j mod ed_p toyD <> 0) /\
  se_new 0 5 se_msg se_refresh = Ret (ok0, Some se_party0) /\
  exists l p r q, se_hist se_party0 l p /\ (forall o x, In (o, x) l -> r_ok x = true) /\ se_call SFinal p = Ret (r, q) /\ r_ok r = true.
Proof.
  split; [exact toy2_laws|]. split; [exact toyD_laws|].
  split; [constructor; try reflexivity; [lia|intros []; reflexivity]|]. split; [discriminate|]. split; [exact se_party0_new|].
  destruct (tfull_spec _ _ _ _ _ _ _ tfull_ok) as (l & p & r & q & H1 & H2 & H3 & H4 & _). exists l, p, r, q. auto.
Qed.
Theorem C19_leading_zero_dropped_refuted : exists m l p r q, hex_dec se_msg = Some m /\
  se_new 0 5 se_msg se_refresh = Ret (ok0, Some se_party0) /\
  se_hist se_party0 l p /\ se_call SFinal p = Ret (r, q) /\ r_ok r = true /\ sg_M (sp_data q) <> m.
Proof.
  destruct (tfull_spec _ _ _ _ _ _ _ tfull_ok) as (l & p & r & q & H1 & H2 & H3 & H4 & H5).
  exists [zb 0; zb 65], l, p, r, q. split; [vm_compute; reflexivity|]. split; [exact se_party0_new|]. auto.
Qed.
