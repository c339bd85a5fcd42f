(** PropCommit.v -- C29 (commitment part builder) and C30 (hash commitments). *)
From Verif Require Import Base BigInt HashFrame Commit.

(** ** C29: the part builder *)
(** What parsing the flat form gives back: the parts, without a final empty part. *)
Definition without_final_empty (parts : list (list (option Z))) : list (list (option Z)) :=
  match rev parts with [] :: r => rev r | _ => parts end.

Lemma wfe_cons p parts : parts <> [] -> without_final_empty (p :: parts) = p :: without_final_empty parts.
Proof.
  intro N. unfold without_final_empty. cbn [rev]. destruct (rev parts) as [|q r] eqn:E.
  - destruct N. rewrite <- (rev_involutive parts), E. reflexivity.
  - cbn [app]. destruct q; [rewrite rev_app_distr; reflexivity|reflexivity].
Qed.

Lemma parse_flat f parts acc : (length (flat parts) <= f)%nat -> Forall (fun p => Z.of_nat (length p) <= max_part_size) parts ->
  (length acc + length parts <= 3)%nat -> parse_loop f (flat parts) acc = Ret (Some (acc ++ without_final_empty parts)).
Proof.
  revert f acc. induction parts as [|p parts IH]; intros f acc L F C.
  - destruct f; cbn; rewrite app_nil_r; reflexivity.
  - cbn [flat flat_map app] in *. destruct f as [|f]; [cbn in L; lia|]. cbn [parse_loop deref obind].
    inversion F as [|? ? Fp Fr]; subst. assert (B : max_part_size = 1048576) by reflexivity.
    rewrite int64_small by (cbn -[Z.of_nat] in *; lia).
    destruct (Z.ltb_spec max_part_size (Z.of_nat (length p))); [lia|].
    change (flat_map (fun p0 => Some (Z.of_nat (length p0)) :: p0) parts) with (flat parts) in *.
    remember (p ++ flat parts) as w eqn:W. destruct w as [|w0 w].
    + symmetry in W. apply app_eq_nil in W. destruct W as [-> W]. destruct parts as [|q ?]; [|discriminate W]. cbn. rewrite app_nil_r. reflexivity.
    + destruct (Z.leb_spec parts_cap (Z.of_nat (length acc))); [unfold parts_cap in *; cbn in C; lia|].
      rewrite W. destruct (Z.ltb_spec (Z.of_nat (length (p ++ flat parts))) (Z.of_nat (length p))); [rewrite app_length in *; lia|].
      destruct (Z.ltb_spec (Z.of_nat (length p)) 0); [lia|]. rewrite Nat2Z.id.
      rewrite firstn_app, skipn_app, firstn_all, skipn_all, Nat.sub_diag. cbn [firstn skipn]. rewrite app_nil_r. cbn [app].
      destruct parts as [|q parts].
      * cbn [flat flat_map] in *. destruct f; cbn [parse_loop]; destruct p as [|p0 p]; try discriminate W; reflexivity.
      * rewrite IH; [|assert (LL := f_equal (@length _) W); rewrite app_length in LL; cbn [length] in *; lia|exact Fr|rewrite app_length; cbn [length] in *; lia].
        rewrite (wfe_cons p (q :: parts)) by discriminate. rewrite <- app_assoc. reflexivity.
Qed.

(** Flattening at most three parts of at most 2^20 elements each succeeds, everything else is an error. *)
Theorem C29_secrets_exact parts :
  (exists s, secrets parts = Some s) <-> (length parts <= 3)%nat /\ Forall (fun p => Z.of_nat (length p) <= 2 ^ 20) parts.
Proof.
  unfold secrets. change (2 ^ 20) with max_part_size. unfold parts_cap. destruct (Z.ltb_spec 3 (Z.of_nat (length parts))).
  - split; [intros [s E]; discriminate|lia].
  - rewrite secrets_loop_spec. split.
    + intros [s E]. split; [lia|]. destruct (forallb _ parts) eqn:F; [|discriminate]. rewrite forallb_forall in F. apply Forall_forall.
      intros p I. apply F in I. lia.
    + intros [_ F]. rewrite (proj2 (forallb_forall _ parts)); [eauto|]. intros p I. rewrite Forall_forall in F. specialize (F p I). lia.
Qed.

(** Parsing what Secrets returned gives the parts back, if the last part is not empty. *)
Theorem C29_round_trip parts s : secrets parts = Some s -> parts <> [] -> last parts [] <> [] -> parse_secrets s = Ret (Some parts).
Proof.
  intros E N L. assert (P := proj1 (C29_secrets_exact parts) (ex_intro _ _ E)). destruct P as [P F].
  unfold secrets in E. destruct (_ <? _); [discriminate|]. rewrite secrets_loop_spec in E. destruct (forallb _ parts); [|discriminate]. injection E as <-.
  cbn [app]. assert (W : without_final_empty parts = parts).
  { unfold without_final_empty. destruct (rev parts) as [|[|q0 q] r] eqn:R; try reflexivity. exfalso. apply L.
    rewrite <- (rev_involutive parts), R. cbn [rev]. apply last_last. }
  unfold parse_secrets. destruct (Z.ltb_spec (Z.of_nat (length (flat parts))) 2) as [S|S].
  - exfalso. destruct (exists_last N) as (l & p & ->). rewrite last_last in L. unfold flat in S. rewrite flat_map_app, app_length in S. cbn [flat_map app] in S.
    destruct p; [congruence|]. rewrite app_nil_r in S. cbn [length] in S. lia.
  - rewrite parse_flat; [cbn [app]; rewrite W; reflexivity|lia|exact F|cbn; lia].
Qed.

(** In general a final empty part is lost (and nothing else); fewer than two elements are refused. *)
Theorem C29_round_trip_general parts s : secrets parts = Some s ->
  parse_secrets s = Ret (if (length s <? 2)%nat then None else Some (without_final_empty parts)).
Proof.
  intros E. assert (P := proj1 (C29_secrets_exact parts) (ex_intro _ _ E)). destruct P as [P F].
  unfold secrets in E. destruct (_ <? _); [discriminate|]. rewrite secrets_loop_spec in E. destruct (forallb _ parts); [|discriminate]. injection E as <-.
  cbn [app]. unfold parse_secrets. destruct (Z.ltb_spec (Z.of_nat (length (flat parts))) 2); destruct (Nat.ltb_spec (length (flat parts)) 2); try lia; [reflexivity|].
  rewrite parse_flat; [reflexivity|lia|exact F|cbn; lia].
Qed.
Theorem C29_round_trip_full_refuted : exists parts s, secrets parts = Some s /\ parse_secrets s = Ret (Some [[Some 7]]) /\ parts = [[Some 7]; []].
Proof. exists [[Some 7]; []], [Some 1; Some 7; Some 0]. split; [|split; [|reflexivity]]; vm_compute; reflexivity. Qed.

(** Flattening is injective: two builders give the same secrets only if they hold the same parts. *)
Theorem C29_secrets_injective p q s : secrets p = Some s -> secrets q = Some s -> p = q.
Proof.
  assert (G : forall p s, secrets p = Some s -> s = flat p).
  { intros p0 s0 E. unfold secrets in E. destruct (_ <? _); [discriminate|]. rewrite secrets_loop_spec in E. destruct (forallb _ _); [|discriminate]. injection E as <-. reflexivity. }
  intros E E'. apply G in E, E'. rewrite E in E'. clear E G s. revert q E'. induction p as [|x p IH]; intros [|y q] E; try discriminate; [reflexivity|].
  cbn [flat flat_map] in E. injection E as E0 E. apply Nat2Z.inj in E0.
  destruct (app_inj_head_len _ _ _ _ E E0) as [-> E']. f_equal. apply IH. exact E'.
Qed.

(** Whatever list is parsed: the result has at most three parts of at most 2^20 elements, and the input is those
    parts, each behind an element whose int64 value is the part's length, plus at most one dangling length element. *)
Lemma parse_sound f rest acc parts : parse_loop f rest acc = Ret (Some parts) ->
  exists new ls tail, parts = acc ++ new /\ Forall2 (fun l p => int64_of l = Z.of_nat (length p) /\ Z.of_nat (length p) <= max_part_size) ls new /\
    rest = flat_map (fun lp => Some (fst lp) :: snd lp) (combine ls new) ++ tail /\ (length tail <= 1)%nat /\ (length acc <= 3 -> length parts <= 3)%nat.
Proof.
  revert rest acc. induction f as [|f IH]; intros rest acc E.
  - destruct rest; [|discriminate]. injection E as <-. exists [], [], []. rewrite app_nil_r. cbn. repeat split; auto.
  - destruct rest as [|e rest]; [injection E as <-; exists [], [], []; rewrite app_nil_r; cbn; repeat split; auto|].
    cbn [parse_loop] in E. destruct e as [v|]; cbn [deref obind] in E; [|discriminate].
    destruct (Z.ltb_spec max_part_size (int64_of v)) as [|B]; [discriminate|]. destruct rest as [|r0 rest].
    + injection E as <-. exists [], [], [Some v]. rewrite app_nil_r. cbn. repeat split; auto.
    + destruct (Z.leb_spec parts_cap (Z.of_nat (length acc))) as [|C]; [discriminate|].
      destruct (Z.ltb_spec (Z.of_nat (length (r0 :: rest))) (int64_of v)) as [|L]; [discriminate|].
      destruct (Z.ltb_spec (int64_of v) 0) as [|P]; [discriminate|].
      apply IH in E. destruct E as (new & ls & tail & -> & F & E & T & K).
      exists (firstn (Z.to_nat (int64_of v)) (r0 :: rest) :: new), (v :: ls), tail. split; [rewrite <- app_assoc; reflexivity|]. split.
      * constructor; [|exact F]. rewrite firstn_length. lia.
      * split; [|split; [exact T|]].
        -- cbn [combine flat_map fst snd]. rewrite <- app_assoc. cbn [app]. f_equal. rewrite <- ?app_assoc, <- E. symmetry. apply firstn_skipn.
        -- intros _. apply K. rewrite app_length. cbn. unfold parts_cap in C. lia.
Qed.
Theorem C29_parse_sound s parts : parse_secrets s = Ret (Some parts) ->
  (length parts <= 3)%nat /\ exists ls tail,
    Forall2 (fun l p => int64_of l = Z.of_nat (length p) /\ Z.of_nat (length p) <= 2 ^ 20) ls parts /\
    s = flat_map (fun lp => Some (fst lp) :: snd lp) (combine ls parts) ++ tail /\ (length tail <= 1)%nat.
Proof.
  unfold parse_secrets. destruct (_ <? _); [discriminate|]. intro E. apply parse_sound in E. destruct E as (new & ls & tail & -> & F & E & T & K).
  cbn [app] in *. split; [apply K; cbn; lia|]. exists ls, tail. auto.
Qed.
(** Parsing terminates without a panic on every list of present, non-negative int64 values. *)
Lemma parse_no_panic f rest acc : (length rest <= f)%nat -> Forall (fun e => exists v, e = Some v /\ 0 <= v < 2 ^ 63) rest -> parse_loop f rest acc <> Panic.
Proof.
  revert rest acc. induction f as [|f IH]; intros rest acc L F; destruct rest as [|e rest]; try discriminate; [cbn in L; lia|].
  inversion F as [|? ? (v & -> & Rv) Fr]; subst. cbn [parse_loop deref obind]. rewrite int64_small by lia.
  destruct (_ <? _); [discriminate|]. destruct rest; [discriminate|]. destruct (_ <=? _); [discriminate|]. destruct (_ <? _); [discriminate|].
  destruct (Z.ltb_spec v 0); [lia|]. apply IH; [rewrite skipn_length; cbn [length] in *; lia|].
  rewrite Forall_forall in *. intros x I. apply Fr. rewrite <- (firstn_skipn (Z.to_nat v)). apply in_or_app. right. exact I.
Qed.
Theorem C29_parse_total s : Forall (fun e => exists v, e = Some v /\ 0 <= v < 2 ^ 63) s -> parse_secrets s <> Panic.
Proof. intro F. unfold parse_secrets. destruct (_ <? _); [discriminate|]. apply parse_no_panic; auto. Qed.
(** The full claim fails: a length element of 2^63 (or a negative one) makes ParseSecrets panic, and 2^64+1 is read as 1. *)
Theorem C29_parse_panics_refuted : parse_secrets [Some (2 ^ 63); Some 1] = Panic /\ parse_secrets [Some (-1); Some 1] = Panic.
Proof. split; vm_compute; reflexivity. Qed.
Theorem C29_parse_not_canonical_refuted : exists s s', s <> s' /\ parse_secrets s = Ret (Some [[Some 9]]) /\ parse_secrets s' = Ret (Some [[Some 9]]).
Proof. exists [Some 1; Some 9], [Some (2 ^ 64 + 1); Some 9]. split; [discriminate|]. split; vm_compute; reflexivity. Qed.
Theorem C29_example : let parts := [[Some 1; None]; []; [Some (-4)]] in
  secrets parts = Some [Some 2; Some 1; None; Some 0; Some 1; Some (-4)] /\
  parse_secrets [Some 2; Some 1; None; Some 0; Some 1; Some (-4)] = Ret (Some parts).
Proof. split; vm_compute; reflexivity. Qed.

(** ** C30: hash commitments *)
Lemma derefs_some zs : derefs (map (@Some Z) zs) = Ret zs.
Proof. induction zs as [|z zs IH]; [reflexivity|]. cbn [map derefs deref obind]. rewrite IH. reflexivity. Qed.
Lemma derefs_inv l zs : derefs l = Ret zs -> l = map (@Some Z) zs.
Proof.
  revert zs. induction l as [|e l IH]; intros zs E; [injection E as <-; reflexivity|]. cbn [derefs] in E. destruct e; cbn [deref obind] in E; [|discriminate].
  destruct (derefs l); cbn [obind] in E; [|discriminate]. injection E as <-. cbn. f_equal. apply IH. reflexivity.
Qed.

Section C30.
  Variable H : bytes -> bytes.
  (** A fresh commitment verifies and opens to exactly the committed secrets. *)
  Theorem C30_complete r sec c : commit_with H r sec = Ret c ->
    cm_verify H c = Ret true /\ cm_decommit H c = Ret (true, sec).
  Proof.
    unfold commit_with, sha_ptrs. destruct (derefs (r :: sec)) as [zs|] eqn:D; cbn [obind]; [|discriminate]. intro E. injection E as <-.
    pose proof (derefs_inv _ _ D) as Z. destruct zs as [|z zs]; [discriminate Z|]. cbn [map] in Z. injection Z as -> ->.
    assert (V : cm_verify H {| cm_c := sha_ints H (z :: zs); cm_d := Some (Some z :: map Some zs) |} = Ret true).
    { unfold cm_verify, sha_ptrs. cbn [cm_c cm_d]. change (Some z :: map (@Some Z) zs) with (map (@Some Z) (z :: zs)). rewrite derefs_some. cbn [obind sha_ints deref]. rewrite Z.eqb_refl. reflexivity. }
    split; [exact V|]. unfold cm_decommit. rewrite V. cbn. reflexivity.
  Qed.
  (** Committing works for every list of present secrets (nil ones panic). *)
  Theorem C30_commit_total r sec : commit_with H (Some r) (map Some sec) <> Panic.
  Proof. unfold commit_with, sha_ptrs. change (Some r :: map (@Some Z) sec) with (map (@Some Z) (r :: sec)). rewrite derefs_some. discriminate. Qed.

  (** Verify accepts exactly the decommitments whose framed hash is the commitment. *)
  Theorem C30_verify_exact c : cm_verify H c = Ret true <->
    exists v r zs, cm_c c = Some v /\ cm_d c = Some (map Some (r :: zs)) /\ v = of_be (H (frame (map to_be (r :: zs)))).
  Proof.
    unfold cm_verify, sha_ptrs. split.
    - destruct (cm_c c) as [v|]; [|discriminate]. destruct (cm_d c) as [d|]; [|discriminate].
      destruct (derefs d) as [zs|] eqn:D; cbn [obind]; [|discriminate]. apply derefs_inv in D. subst d.
      destruct zs as [|z zs]; cbn [sha_ints deref obind]; [discriminate|]. intro E. injection E as E. apply Z.eqb_eq in E.
      exists v, z, zs. repeat split. symmetry. exact E.
    - intros (v & r & zs & -> & -> & ->). rewrite derefs_some. cbn [obind sha_ints deref]. rewrite Z.eqb_refl. reflexivity.
  Qed.
  (** DeCommit hands out the secrets iff Verify accepts; otherwise nothing. *)
  Theorem C30_decommit_iff_verify c ok out : cm_decommit H c = Ret (ok, out) ->
    cm_verify H c = Ret ok /\ (ok = true -> exists r, cm_d c = Some (Some r :: out)) /\ (ok = false -> out = []).
  Proof.
    unfold cm_decommit. destruct (cm_c c) as [v|] eqn:C; cbn [deref obind]; [|discriminate].
    destruct (cm_d c) as [[|d0 d]|] eqn:D; cbn; try discriminate. destruct d0 as [r|]; cbn [deref obind]; [|discriminate].
    destruct (cm_verify H c) as [b|]; cbn [obind]; [|discriminate]. destruct b; intro E; injection E as <- <-; repeat split; eauto; discriminate.
  Qed.
  (** Binding: two accepted openings of one commitment are equal, or exhibit a collision of the hash function. *)
  Theorem C30_binding v d d' : (forall a b, length (H a) = length (H b)) ->
    Forall (fun z => 0 <= z) d -> Forall (fun z => 0 <= z) d' -> parts_ok (map to_be d) -> parts_ok (map to_be d') ->
    cm_verify H {| cm_c := Some v; cm_d := Some (map Some d) |} = Ret true ->
    cm_verify H {| cm_c := Some v; cm_d := Some (map Some d') |} = Ret true ->
    d = d' \/ collision H (frame (map to_be d)) (frame (map to_be d')).
  Proof.
    assert (J : forall a b : list Z, map (@Some Z) a = map (@Some Z) b -> a = b).
    { induction a as [|x a IH]; intros [|y b] E; try discriminate; [reflexivity|]. injection E as -> E. f_equal. auto. }
    intros HL P P' O O' V V'. apply C30_verify_exact in V, V'. destruct V as (v1 & r & zs & E1 & E2 & E3). destruct V' as (v2 & r' & zs' & F1 & F2 & F3).
    cbn [cm_c cm_d] in *. injection E1 as <-. injection F1 as <-. injection E2 as E2. injection F2 as F2. apply (J d (r :: zs)) in E2; apply (J d' (r' :: zs')) in F2. subst d d'.
    apply sha_ints_inj; auto; [|left; discriminate]. cbn [sha_ints]. rewrite <- E3, <- F3. reflexivity.
  Qed.
End C30.
(** the sign of an element is not committed to *)
Theorem C30_sign_not_bound_refuted H : exists v d d', d <> d' /\
  cm_verify H {| cm_c := v; cm_d := Some (map Some d) |} = Ret true /\ cm_verify H {| cm_c := v; cm_d := Some (map Some d') |} = Ret true.
Proof.
  exists (sha_ints H [3; 5]), [3; 5], [3; -5]. split; [discriminate|]. unfold cm_verify, sha_ptrs. cbn [cm_c cm_d sha_ints].
  rewrite !derefs_some. cbn [obind sha_ints deref]. split; [rewrite Z.eqb_refl; reflexivity|].
  replace (map to_be [3; -5]) with (map to_be [3; 5]) by reflexivity. rewrite Z.eqb_refl. reflexivity.
Qed.
(** DeCommit panics where Verify answers false (no commitment) and both panic on an empty decommitment *)
Theorem C30_panics_refuted H : let nilc := {| cm_c := None; cm_d := Some [Some 1] |} in
  cm_verify H nilc = Ret false /\ cm_decommit H nilc = Panic /\
  cm_verify H {| cm_c := Some 1; cm_d := Some [] |} = Panic /\ cm_decommit H {| cm_c := Some 1; cm_d := None |} = Panic.
Proof. repeat split. Qed.
(** with an identity-like "hash" the model's commitment is concrete: committing to 5 and 7 with randomness 3 *)
Definition c30_c : commitment := Eval vm_compute in match commit_with (fun b => b) (Some 3) [Some 5; Some 7] with Ret c => c | Panic => {| cm_c := None; cm_d := None |} end.
Theorem C30_example : commit_with (fun b => b) (Some 3) [Some 5; Some 7] = Ret c30_c /\ cm_decommit (fun b => b) c30_c = Ret (true, [Some 5; Some 7]) /\
  cm_decommit (fun b => b) {| cm_c := cm_c c30_c; cm_d := Some [Some 3; Some 5; Some 8] |} = Ret (false, []).
Proof. split; [vm_compute; reflexivity|]. split; vm_compute; reflexivity. Qed.
