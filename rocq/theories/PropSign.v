(** PropSign.v -- C10, C11, C12 (signing), C17, C19, C20: what signing calls do in every state and history. *)
From Verif Require Import Base BigInt HashFrame Text Wire Messages PartyID Curve Json Save Keygen KeygenNet KeygenWorld NumTh Paillier RangeProofs RangeThm Ckd Subset Onsign OnsignEnc OnsignHist.

(** ** Small facts *)
Lemma b64chr_safe d : 0 <= d < 64 -> safe_ch (b64chr d) = true.
Proof.
  intro H. unfold safe_ch, b64chr.
  destruct (Z.ltb_spec d 26); [|destruct (Z.ltb_spec d 52); [|destruct (Z.ltb_spec d 62);
    [|destruct (Z.eqb_spec d 62)]]]; rewrite bz_zb_small by lia; lia.
Qed.
Lemma b64_enc_safe l : forallb safe_ch (b64_enc l) = true.
Proof.
  assert (P : safe_ch padc = true) by reflexivity.
  induction l as [|a|a b|a b c r IH] using bytes_ind3; [reflexivity|..]; cbn [b64_enc forallb].
  - pose proof (bz_range a). rewrite !b64chr_safe, P by lia. reflexivity.
  - pose proof (bz_range a). pose proof (bz_range b). rewrite !b64chr_safe, P by lia. reflexivity.
  - pose proof (bz_range a). pose proof (bz_range b). pose proof (bz_range c). rewrite !b64chr_safe, IH by lia. reflexivity.
Qed.

Lemma Ret_pair_inj {A E} (a c : A) (b d : E) : Ret (a, b) = Ret (c, d) -> a = c /\ b = d.
Proof. intro H. inversion H. auto. Qed.
Lemma firstn_app_len {A} k (a b : list A) : length a = k -> firstn k (a ++ b) = a.
Proof. intros <-. rewrite firstn_app, Nat.sub_diag, firstn_all, firstn_O, app_nil_r. reflexivity. Qed.
Lemma skipn_app_len {A} k (a b : list A) : length a = k -> skipn k (a ++ b) = b.
Proof. intros <-. rewrite skipn_app, Nat.sub_diag, skipn_all. reflexivity. Qed.
Lemma of_le_app a b : of_le (a ++ b) = of_le a + 256 ^ Z.of_nat (length a) * of_le b.
Proof.
  induction a as [|x a IH]; cbn [app of_le length]; [change (256 ^ Z.of_nat 0) with 1; lia|]. rewrite IH, pow256_S. ring.
Qed.

(** the other parties, in index order *)
Definition others (i N : nat) : list nat := filter (fun j => negb (j =? i)%nat) (seq 0 N).
Lemma others_in i N j : In j (others i N) <-> (j < N)%nat /\ j <> i.
Proof.
  unfold others. rewrite filter_In, in_seq, negb_true_iff, Nat.eqb_neq. split; intros [A B]; split; auto; lia.
Qed.

(** ** Creating a session *)
Section New.
  Variables (C : curve) (HM : bytes -> bytes -> bytes) (spare : bytes -> bytes).
  Lemma sg_new_inv i N pids msg kd rf path res p : (i < N)%nat ->
    sg_new C HM spare (Z.of_nat i) (Z.of_nat N) pids msg kd rf path = Ret (res, Some p) ->
    exists ids kb keys c priv X ded ch pubs rfb pks peds kp src' m,
      make_ids (Z.of_nat N) pids = Ret ids /\ b64_dec kd = Some kb /\ save_dec C kb = Some keys /\
      length (split slash path) = 5%nat /\
      nth_error (match sv_chain keys with Some l => l | None => [] end) i = Some (Some c) /\
      nth_error (sv_pub keys) i = Some (Some X) /\ sv_priv keys = Some priv /\ sv_ed keys = Some ded /\
      derive_priv C HM priv X ded (to_be c) path = Ret (Some ch) /\
      derive_pubs C HM ded (match sv_chain keys with Some l => l | None => [] end) path (sv_pub keys) = Ret pubs /\
      hex_dec rf = Some rfb /\ refresh_recs (rfb ++ spare rf) (seq 0 N) = Ret (pks, peds) /\
      build_subset (set_peds peds (set_pks pks (set_pub pubs (set_priv (Some (of_be ch)) keys)))) ids = Ret (inr kp, src') /\
      hex_dec msg = Some m /\ res = ok0 /\
      p = {| sp_i := i; sp_ids := ids; sp_save := kp;
             sp_r11 := repeat [] N; sp_r12 := repeat [] N; sp_r2 := repeat [] N; sp_r3 := repeat [] N;
             sp_out12 := repeat [] N; sp_out2 := repeat [] N;
             sp_k := None; sp_rho := None; sp_K := repeat None N; sp_m := of_be m;
             sp_si := None; sp_r := None; sp_ssid := []; sp_number := 0;
             sp_data := {| sg_sig := []; sg_R := []; sg_S := []; sg_M := [] |} |}.
  Proof.
    intros Hi E. unfold sg_new in E.
    destruct (make_ids _ _) as [ids|] eqn:E1; cbn [obind] in E; [|discriminate].
    rewrite idx_nat in E. destruct (nth_error ids i) as [self|] eqn:E2; cbn [obind] in E; [|discriminate].
    destruct (b64_dec kd) as [kb|] eqn:E3; [|discriminate].
    destruct (save_dec C kb) as [keys|] eqn:E4; [|discriminate].
    destruct (negb _) eqn:E5; [discriminate|].
    rewrite idx_nat in E. destruct (nth_error _ i) as [c0|] eqn:E6 in E; cbn [obind] in E; [|discriminate].
    destruct c0 as [c|]; cbn [obind deref] in E; [|discriminate].
    rewrite idx_nat in E. destruct (nth_error (sv_pub keys) i) as [x0|] eqn:E7; cbn [obind] in E; [|discriminate].
    destruct (sv_priv keys) as [priv|] eqn:E8; cbn [obind deref] in E; [|discriminate].
    destruct x0 as [X|]; cbn [obind deref] in E; [|discriminate].
    destruct (sv_ed keys) as [ded|] eqn:E9; cbn [obind deref] in E; [|discriminate].
    destruct (derive_priv _ _ _ _ _ _ _) as [[ch|]|] eqn:E10; cbn [obind] in E; try discriminate.
    destruct (derive_pubs _ _ _ _ _ _) as [pubs|] eqn:E11; cbn [obind] in E; [|discriminate].
    destruct (hex_dec rf) as [rfb|] eqn:E12; [|discriminate].
    rewrite Nat2Z.id in E. destruct (refresh_recs _ _) as [[pks peds]|] eqn:E13; cbn [obind] in E; [|discriminate].
    destruct (build_subset _ _) as [[sub src']|] eqn:E14; cbn [obind] in E; [|discriminate].
    destruct sub as [e|kp]; [discriminate|].
    destruct (hex_dec msg) as [m|] eqn:E15; [|discriminate].
    rewrite (make_ids_index _ _ _ _ _ E1 E2), Nat2Z.id in E.
    exists ids, kb, keys, c, priv, X, ded, ch, pubs, rfb, pks, peds, kp, src', m.
    apply negb_false_iff, Nat.eqb_eq in E5.
    repeat (split; [first [assumption|reflexivity|congruence]|]). congruence.
  Qed.
  Lemma sg_new_wf i N pids msg kd rf path res p : (i < N)%nat ->
    sg_new C HM spare (Z.of_nat i) (Z.of_nat N) pids msg kd rf path = Ret (res, Some p) ->
    swf N i p /\ forall k j, (j < N)%nat -> nth_error (s_slots k p) j = Some [].
  Proof.
    intros Hi E. destruct (sg_new_inv _ _ _ _ _ _ _ _ _ Hi E) as (ids & kb & keys & c & priv & X & ded & ch & pubs & rfb & pks & peds & kp & src' & m & M & _ & _ & _ & _ & _ & _ & _ & _ & _ & _ & _ & _ & _ & _ & ->).
    split.
    - constructor; cbn; auto; try apply repeat_length; [|eapply make_ids_length; eauto].
      intros []; apply repeat_length.
    - intros [] j Hj; cbn; apply nth_error_repeat; exact Hj.
  Qed.
End New.

Section Calls.
  Variables (C : curve) (D : edlib) (B S5 : bytes -> bytes).
  Notation call := (sop_run C D B S5).
  Notation hist := (s_hist C D B S5).
  Notation n := (c_n C).

  (** ** C10 (signing) *)
  (** A round-1 message that is rejected leaves the session exactly as it was. *)
  Theorem C10_sign_round1_rejected_no_change_partial from msg p res p' :
    call (SAcc 1 from msg) p = Ret (res, p') -> r_ok res = false -> p' = p.
  Proof.
    rewrite accept_eq. unfold acc_effect, acc_err.
    destruct (b64_dec msg) as [w|]; [destruct (parse_wire w) as [[]|]|]; intros E O;
      try (destruct (store _ _ _); cbn [obind] in E; [|discriminate]); inversion E; subst; try reflexivity; discriminate.
  Qed.
  (** In every round a message that is not valid base64 changes nothing. *)
  Theorem C10_sign_bad_base64_no_change r from msg p : b64_dec msg = None ->
    call (SAcc r from msg) p = Ret (fail EB64, p).
  Proof. intro H. rewrite accept_eq. unfold acc_effect, acc_err. rewrite H. reflexivity. Qed.
  (** Whatever the message, an Accept call of round r changes at most the slot of its sender in one array of that
      round; everything else (other slots, other rounds, secrets, key data) is untouched. *)
  Theorem C10_sign_accept_frame r from msg p res p' : call (SAcc r from msg) p = Ret (res, p') ->
    exists k sl, (match r with 1%nat => k = K11 \/ k = K12 | 2%nat => k = K2 | _ => k = K3 end) /\
      p' = s_set_slots k sl p /\ length sl = length (s_slots k p) /\
      forall j, Z.of_nat j <> from -> nth_error sl j = nth_error (s_slots k p) j.
  Proof.
    rewrite accept_eq. destruct (acc_effect r msg) as [[k w]|] eqn:A.
    - assert (K : match r with 1%nat => k = K11 \/ k = K12 | 2%nat => k = K2 | _ => k = K3 end).
      { unfold acc_effect in A. destruct (b64_dec msg) as [w'|]; [|discriminate].
        destruct r as [|[|[|r]]]; try (destruct (parse_wire w') as [[]|]); inversion A; auto. }
      destruct (store _ _ _) as [sl|] eqn:S; cbn [obind]; [|discriminate]. apply store_Ret in S. destruct S as [Bd ->].
      intro E. inversion E; subst. exists k. eexists. split; [exact K|]. split; [reflexivity|]. split; [apply upd_length|].
      intros j Hj. apply nth_error_upd_diff. lia.
    - intro E. inversion E; subst. set (k := match r with 1%nat => K11 | 2%nat => K2 | _ => K3 end). exists k, (s_slots k p').
      split; [destruct r as [|[|[|r]]]; cbn; auto|]. split; [|auto]. destruct k, p'; reflexivity.
  Qed.

  (** ** C11 (signing): with an in-range sender an Accept call returns, whatever the message *)
  Theorem C11_sign_accept_never_panics_partial N i r from msg p : swf N i p -> 0 <= from < Z.of_nat N ->
    exists res p', call (SAcc r from msg) p = Ret (res, p').
  Proof.
    intros W Hf. rewrite accept_eq. destruct (acc_effect r msg) as [[k w]|]; [|eauto].
    unfold store. rewrite (sw_slots _ _ _ W k).
    destruct (Z.leb_spec 0 from); [|lia]. destruct (Z.ltb_spec from (Z.of_nat N)); [|lia]. cbn. eauto.
  Qed.

  (** ** C12 (signing) *)
  Lemma s1_missing_none k l1 l2 : length l1 = length l2 -> exists o, s1_missing k l1 l2 = Ret o /\
    (o = None <-> forall j a b, nth_error l1 j = Some a -> nth_error l2 j = Some b -> a <> [] /\ b <> []).
  Proof.
    revert k l1; induction l2 as [|b l2 IH]; intros k [|a l1] L; try discriminate; cbn [s1_missing].
    - exists None. split; [reflexivity|]. split; [|reflexivity]. intros _ [|j] a b Ha; discriminate.
    - injection L as L. destruct (IH (S k) l1 L) as (o & E & Io).
      assert (T : forall o' : option nat, (o' = None <-> (a <> [] /\ b <> []) /\ (forall j a b, nth_error l1 j = Some a -> nth_error l2 j = Some b -> a <> [] /\ b <> [])) ->
        (o' = None <-> (forall j a0 b0, nth_error (a :: l1) j = Some a0 -> nth_error (b :: l2) j = Some b0 -> a0 <> [] /\ b0 <> []))).
      { intros o' Q. rewrite Q. split.
        - intros [Q1 Q2] [|j] a0 b0 Ha Hb; cbn in Ha, Hb; [inversion Ha; inversion Hb; subst; exact Q1|eapply Q2; eauto].
        - intro Q1. split; [apply (Q1 0%nat); reflexivity|]. intros j. apply (Q1 (S j)). }
      destruct a as [|a0 a]; [|destruct b as [|b0 b]].
      + exists (Some k). split; [reflexivity|]. apply T. split; [discriminate|]. intros [[Q _] _]. congruence.
      + exists (Some k). split; [reflexivity|]. apply T. split; [discriminate|]. intros [[_ Q] _]. congruence.
      + exists o. split; [exact E|]. apply T. rewrite Io. split; [intro Q; split; [split; discriminate|exact Q]|intros [_ Q]; exact Q].
  Qed.
  Definition round_kinds (r : nat) : list skind := match r with 1%nat => [K11; K12] | 2%nat => [K2] | _ => [K3] end.
  Lemma finish_iff N i p r : swf N i p -> exists res, call (SFin r) p = Ret (res, p) /\
    (r_ok res = true <-> forall k j, In k (round_kinds r) -> (j < N)%nat -> exists w, nth_error (s_slots k p) j = Some w /\ w <> []).
  Proof.
    intro W. assert (G : forall k, first_missing None 0 (s_slots k p) = None <-> forall j, (j < N)%nat -> exists w, nth_error (s_slots k p) j = Some w /\ w <> []).
    { intro k. rewrite first_missing_none. split.
      - intros F j Hj. destruct (nth_error (s_slots k p) j) as [w|] eqn:E; [exists w; split; [reflexivity|exact (F j w E I)]|].
        apply nth_error_None in E. rewrite (sw_slots _ _ _ W) in E. lia.
      - intros F j m Hm _. destruct (F j) as (w & Ew & Nw); [apply nth_error_Some_lt in Hm; rewrite (sw_slots _ _ _ W) in Hm; exact Hm|]. congruence. }
    destruct r as [|[|[|r]]]; cbn [sop_run round_kinds].
    - unfold sg_finish3. eexists. split; [reflexivity|]. specialize (G K3). cbn [s_slots] in G.
      destruct (first_missing _ _ _); cbn; (split; [intro Q|intro Q]); try discriminate.
      + assert (X : forall j, (j < N)%nat -> exists w, nth_error (sp_r3 p) j = Some w /\ w <> []) by (intros j Hj; apply (Q K3 j (or_introl eq_refl) Hj)). apply G in X. discriminate.
      + intros k j [<-|[]]. apply G. reflexivity.
      + reflexivity.
    - unfold sg_finish1. destruct (s1_missing_none 0 (sp_r11 p) (sp_r12 p)) as (o & E & Io).
      { rewrite (sw_slots _ _ _ W K11 : length (sp_r11 p) = N), (sw_slots _ _ _ W K12 : length (sp_r12 p) = N). reflexivity. }
      rewrite E. cbn [obind]. eexists. split; [reflexivity|].
      assert (X : o = None <-> forall k j, In k [K11; K12] -> (j < N)%nat -> exists w, nth_error (s_slots k p) j = Some w /\ w <> []).
      { rewrite Io. split.
        - intros F k j Hk Hj.
          destruct (nth_error (sp_r11 p) j) as [a|] eqn:Ea; [|apply nth_error_None in Ea; pose proof (sw_slots _ _ _ W K11) as Q; cbn in Q; lia].
          destruct (nth_error (sp_r12 p) j) as [b|] eqn:Eb; [|apply nth_error_None in Eb; pose proof (sw_slots _ _ _ W K12) as Q; cbn in Q; lia].
          destruct (F j a b Ea Eb) as [Na Nb]. destruct Hk as [<-|[<-|[]]]; cbn [s_slots]; eauto.
        - intros F j a b Ha Hb. assert (Hj : (j < N)%nat) by (pose proof (nth_error_Some_lt _ _ _ Ha) as Q; pose proof (sw_slots _ _ _ W K11) as Q'; cbn in Q'; lia).
          destruct (F K11 j) as (w & Ew & Nw); [left; reflexivity|exact Hj|]. destruct (F K12 j) as (w' & Ew' & Nw'); [right; left; reflexivity|exact Hj|].
          cbn [s_slots] in *. split; congruence. }
      destruct o; cbn; rewrite <- X; split; intro Q; congruence.
    - unfold sg_finish2. eexists. split; [reflexivity|]. specialize (G K2). cbn [s_slots] in G.
      destruct (first_missing _ _ _); cbn; (split; [intro Q|intro Q]); try discriminate.
      + assert (X : forall j, (j < N)%nat -> exists w, nth_error (sp_r2 p) j = Some w /\ w <> []) by (intros j Hj; apply (Q K2 j (or_introl eq_refl) Hj)). apply G in X. discriminate.
      + intros k j [<-|[]]. apply G. reflexivity.
      + reflexivity.
    - unfold sg_finish3. eexists. split; [reflexivity|]. specialize (G K3). cbn [s_slots] in G.
      destruct (first_missing _ _ _); cbn; (split; [intro Q|intro Q]); try discriminate.
      + assert (X : forall j, (j < N)%nat -> exists w, nth_error (sp_r3 p) j = Some w /\ w <> []) by (intros j Hj; apply (Q K3 j (or_introl eq_refl) Hj)). apply G in X. discriminate.
      + intros k j [<-|[]]. apply G. reflexivity.
      + reflexivity.
  Qed.
  (** After any history of calls on a new session, Finish of round r leaves the session as it is and returns Ok exactly
      when the party's own slots of that round are filled and, for every other party, the last message Accept stored for
      it is non-empty (in round 1: for both kinds of message). *)
  Theorem C12_sign_finish_iff HM spare N i pids msg kd rf path r0 p0 l p r : (i < N)%nat ->
    sg_new C HM spare (Z.of_nat i) (Z.of_nat N) pids msg kd rf path = Ret (r0, Some p0) -> hist p0 l p ->
    exists res, call (SFin r) p = Ret (res, p) /\
      (r_ok res = true <->
        (forall k, In k (round_kinds r) -> exists w, nth_error (s_slots k p) i = Some w /\ w <> []) /\
        (forall k j, In k (round_kinds r) -> (j < N)%nat -> j <> i -> exists w, s_last k j l = Some w /\ w <> [])).
  Proof.
    intros Hi New Hh. destruct (sg_new_wf _ _ _ _ _ _ _ _ _ _ _ _ Hi New) as [W0 Z0].
    destruct (s_hist_inv C D B S5 N i p0 l p W0 Hh Z0) as [W S].
    destruct (finish_iff N i p r W) as (res & E & Iff). exists res. split; [exact E|]. rewrite Iff. split.
    - intro F. split; [intros k Hk; apply F; auto|]. intros k j Hk Hj Hji. destruct (F k j Hk Hj) as (w & Ew & Nw).
      rewrite (S k j Hj Hji) in Ew. destruct (s_last k j l) as [w'|]; [|congruence]. exists w'. split; [reflexivity|congruence].
    - intros [F1 F2] k j Hk Hj. destruct (Nat.eq_dec j i) as [->|Hji]; [apply F1; exact Hk|].
      destruct (F2 k j Hk Hj Hji) as (w & Ew & Nw). exists w. rewrite (S k j Hj Hji), Ew. auto.
  Qed.
  (** In round 1 a filled slot always holds a message of the right type that an Accept call returned Ok for. *)
  Theorem C12_sign_round1_slots_accepted_partial HM spare N i pids msg kd rf path r0 p0 l p k j w : (i < N)%nat ->
    sg_new C HM spare (Z.of_nat i) (Z.of_nat N) pids msg kd rf path = Ret (r0, Some p0) -> hist p0 l p ->
    (k = K11 \/ k = K12) -> (j < N)%nat -> j <> i -> nth_error (s_slots k p) j = Some w -> w <> [] ->
    exists m res, In (SAcc 1 (Z.of_nat j) m, res) l /\ r_ok res = true /\ b64_dec m = Some w /\
      exists c, parse_wire w = Some c /\ match k, c with K11, CS11 _ | K12, CS12 _ => True | _, _ => False end.
  Proof.
    intros Hi New Hh Hk Hj Hji Hs Nw. destruct (sg_new_wf _ _ _ _ _ _ _ _ _ _ _ _ Hi New) as [W0 Z0].
    destruct (s_hist_inv C D B S5 N i p0 l p W0 Hh Z0) as [_ S]. rewrite (S k j Hj Hji) in Hs.
    destruct (s_last k j l) as [w'|] eqn:SL; [|congruence]. injection Hs as ->. clear S New Z0.
    induction Hh as [p|p l p1 o res p2 Hh IH Run]; [discriminate|]. rewrite s_last_app in SL.
    destruct (sop_write o k j) as [w1|] eqn:OW.
    - injection SL as ->. destruct o as [| | | | | |r from m|]; try discriminate. cbn [sop_write] in OW.
      destruct (acc_effect r m) as [[k' w']|] eqn:AE; [|discriminate].
      destruct (skind_eqb_spec k' k) as [->|]; [|discriminate]. cbn [andb] in OW.
      destruct (Z.eqb_spec from (Z.of_nat j)) as [->|]; [|discriminate]. injection OW as ->.
      assert (R : r = 1%nat). { unfold acc_effect in AE. destruct (b64_dec m); [|discriminate]. destruct r as [|[|[|r]]]; auto; inversion AE; subst; destruct Hk; discriminate. }
      subst r. exists m, res. split; [apply in_or_app; right; left; reflexivity|].
      rewrite accept_eq, AE in Run. destruct (store _ _ _) as [sl|]; cbn [obind] in Run; [|discriminate].
      assert (EO : r_ok res = true /\ b64_dec m = Some w /\ exists c, parse_wire w = Some c /\ match k, c with K11, CS11 _ | K12, CS12 _ => True | _, _ => False end).
      { unfold acc_effect, acc_err in *. destruct (b64_dec m) as [w0|]; [|discriminate]. destruct (parse_wire w0) as [[]|] eqn:P; try discriminate;
          injection AE as <- <-; inversion Run; subst; (split; [reflexivity|]; split; [reflexivity|]; eexists; split; [exact P|exact Logic.I]). }
      exact EO.
    - destruct IH as (m & res' & In' & Q); auto. exists m, res'. split; [apply in_or_app; left; exact In'|exact Q].
  Qed.

  (** ** What a session keeps from its creation *)
  Definition same_key (p p' : sparty) : Prop :=
    sp_i p' = sp_i p /\ sp_ids p' = sp_ids p /\ sp_m p' = sp_m p /\
    sv_priv (sp_save p') = sv_priv (sp_save p) /\ sv_pub (sp_save p') = sv_pub (sp_save p) /\
    sv_pks (sp_save p') = sv_pks (sp_save p) /\ sv_peds (sp_save p') = sv_peds (sp_save p).
  Lemma same_key_refl p : same_key p p. Proof. repeat split. Qed.
  Lemma same_key_trans p q r : same_key p q -> same_key q r -> same_key p r.
  Proof. unfold same_key. intros (?&?&?&?&?&?&?) (?&?&?&?&?&?&?). repeat split; congruence. Qed.
  (** stored partial signature and R are 32-byte values *)
  Definition sig_fits (p : sparty) : Prop :=
    (forall s, sp_si p = Some s -> length s = 32%nat) /\ (forall r, sp_r p = Some r -> 0 <= r < 2 ^ 256).

  Lemma r3_si z p res p' : sg_r3_exec C D B S5 z p = Ret (res, p') -> sig_fits p -> sig_fits p'.
  Proof.
    unfold sg_r3_exec. intros E F.
    destruct (s3_loop _ _ _ _ _ _ _) as [[e|R]|]; cbn [obind] in E; [inversion E; subst; exact F| |discriminate].
    destruct (deref (sv_ed _)) as [A|]; cbn [obind] in E; [|discriminate].
    destruct (store _ _ _) as [r3|]; cbn [obind] in E; [|discriminate].
    assert (Q : sp_si p' = Some (sc_muladd C (sc_reduce C (S5 (ext_bytes R ++ point_enc D A ++ to_be (sp_m p)))) (big_enc_opt (sv_priv (sp_save p))) (big_enc_opt (sp_k p)))
      /\ sp_r p' = Some (enc_to_big (ext_bytes R))) by (inversion E; split; reflexivity).
    destruct Q as [Q1 Q2]. split.
    - intros s Hs. rewrite Q1 in Hs. injection Hs as <-. apply le_fixed_length.
    - intros r Hr. rewrite Q2 in Hr. injection Hr as <-. apply enc_to_big_range. destruct R; [apply ge_bytes_len|apply repeat_length].
  Qed.
  Lemma sop_consts o p res p' : call o p = Ret (res, p') -> same_key p p' /\ (sig_fits p -> sig_fits p').
  Proof.
    intro E. destruct o as [r|d|z| |to|to|r from msg|r].
    - cbn [sop_run] in E. apply r1_frame in E. destruct E as (p1 & Ks & r11 & o & r12 & P1 & _ & _ & _ & _ & _ & _ & _ & ->).
      destruct P1 as [->|(ed & [->| ->])]; (split; [repeat split|]; intros [F1 F2]; split; [exact F1|exact F2]).
    - cbn [sop_run] in E. apply r2_frame in E. destruct E as (Ks & o & r2 & _ & _ & _ & _ & ->).
      split; [repeat split|]. intros [F1 F2]; split; [exact F1|exact F2].
    - cbn [sop_run] in E. split; [|apply (r3_si _ _ _ _ E)].
      apply r3_frame in E. destruct E as (si & r & r3 & _ & _ & ->). repeat split.
    - cbn [sop_run] in E. apply final_frame in E. destruct E as (d & ->).
      split; [repeat split|]. intros [F1 F2]; split; [exact F1|exact F2].
    - cbn [sop_run] in E. unfold sg_get1 in E. destruct (idx _ _); cbn [obind] in E; [|discriminate]. inversion E; subst. split; [apply same_key_refl|auto].
    - cbn [sop_run] in E. unfold sg_get2 in E. destruct (idx _ _); cbn [obind] in E; [|discriminate]. inversion E; subst. split; [apply same_key_refl|auto].
    - apply C10_sign_accept_frame in E. destruct E as (k & sl & _ & -> & _).
      destruct k; (split; [repeat split|]; intros [F1 F2]; split; [exact F1|exact F2]).
    - assert (P : p' = p).
      { destruct r as [|[|[|r]]]; cbn [sop_run] in E; unfold sg_finish1, sg_finish2, sg_finish3 in E;
          try (destruct (s1_missing _ _ _); cbn [obind] in E; [|discriminate]); inversion E; reflexivity. }
      subst. split; [apply same_key_refl|auto].
  Qed.
  Lemma hist_consts p0 l p : hist p0 l p -> same_key p0 p /\ (sig_fits p0 -> sig_fits p).
  Proof.
    induction 1 as [p|p l p1 o res p2 Hh [IH1 IH2] Run]; [split; [apply same_key_refl|auto]|].
    destruct (sop_consts _ _ _ _ Run) as [S1 S2]. split; [eapply same_key_trans; eauto|auto].
  Qed.

  (** ** C17: a returned signature verifies *)
  (** Ed25519 verification of a 64-byte signature against a 32-byte public key, from the definition (RFC 8032 5.1.7,
      with the S < 2^253 check of agl/ed25519): R + h*A = S*G with h = SHA512(R || pub || M) mod n *)
  Definition ed25519_valid (pub M sig : bytes) : Prop :=
    length sig = 64%nat /\ of_le (skipn 32 sig) < 2 ^ 253 /\
    exists A R, ed_dec D pub = Some A /\ c_canon C R /\ ge_bytes R = firstn 32 sig /\
      c_add C R (c_smul C A (of_le (S5 (firstn 32 sig ++ pub ++ M)) mod n)) = c_smul C (c_g C) (of_le (skipn 32 sig)).

  Lemma top_bits b : length b = 32%nat -> Z.land (bz (nth 31 b (zb 0))) 224 = 0 -> of_le b < 2 ^ 253.
  Proof.
    intros Hl H. assert (S : b = firstn 31 b ++ [nth 31 b (zb 0)]).
    { rewrite <- (firstn_skipn 31 b) at 1. f_equal. do 31 (destruct b as [|? b]; [discriminate|]). cbn in *. destruct b as [|x b]; [discriminate|]. destruct b; [reflexivity|discriminate]. }
    rewrite S. assert (L1 : length (firstn 31 b) = 31%nat) by (rewrite firstn_length; lia).
    rewrite of_le_app. rewrite L1. pose proof (of_le_range (firstn 31 b)) as R. rewrite L1 in R.
    pose proof (bz_range (nth 31 b (zb 0))) as Rb.
    assert (T : bz (nth 31 b (zb 0)) < 32).
    { destruct (Z_lt_le_dec (bz (nth 31 b (zb 0))) 32) as [|G]; [assumption|exfalso].
      set (x := bz (nth 31 b (zb 0))) in *. clearbody x.
      assert (X : x = x mod 32 + 32 * (x / 32)) by (pose proof (Z.div_mod x 32 ltac:(lia)); lia).
      assert (Y : Z.land x 224 = 32 * (Z.land (x / 32) 7)).
      { change 224 with (Z.shiftl 7 5). change (Z.land x (Z.shiftl 7 5) = 32 * Z.land (x / 32) 7).
        change 32 with (2 ^ 5). rewrite <- Z.shiftr_div_pow2 by lia. rewrite Z.mul_comm, <- Z.shiftl_mul_pow2 by lia.
        rewrite Z.shiftl_land. apply Z.bits_inj'. intros k Hk. rewrite !Z.land_spec. destruct (Z_lt_le_dec k 5).
        - rewrite !(Z.shiftl_spec_low _ 5 k) by lia. rewrite !andb_false_r. reflexivity.
        - rewrite !Z.shiftl_spec by lia. rewrite (Z.shiftr_spec x) by lia. replace (k - 5 + 5) with k by lia. reflexivity. }
      rewrite H in Y. change 7 with (Z.ones 3) in Y. rewrite Z.land_ones in Y by lia. change (2 ^ 3) with 8 in Y.
      rewrite Z.mod_small in Y by (split; [apply Z.div_pos; lia|apply Z.div_lt_upper_bound; lia]).
      pose proof (Z.div_str_pos x 32 ltac:(lia)). lia. }
    cbn [of_le]. change (256 ^ Z.of_nat 31) with (2 ^ 248) in *. change (2 ^ 253) with (32 * 2 ^ 248). nia.
  Qed.

  Lemma ed_verify_valid (L : curve_laws C) (LD : ed_laws C D) A M r s : ed_verify C D S5 A M r s = true ->
    ed25519_valid (point_enc D A) M (big_enc r ++ big_enc s).
  Proof.
    unfold ed_verify. intro E. destruct (Z.land _ 224 =? 0) eqn:T; cbn [negb] in E; [|discriminate].
    apply Z.eqb_eq in T. pose proof (top_bits _ (big_enc_len s) T) as TB.
    assert (F : firstn 32 (big_enc r ++ big_enc s) = big_enc r).
    { apply firstn_app_len, big_enc_len. }
    assert (K : skipn 32 (big_enc r ++ big_enc s) = big_enc s).
    { apply skipn_app_len, big_enc_len. }
    split; [rewrite app_length, !big_enc_len; reflexivity|]. rewrite F, K. split; [exact TB|].
    destruct (ed_dec D (point_enc D A)) as [A'|] eqn:DA; [|discriminate].
    apply bytes_eqb_eq in E. pose proof (el_dec_canon C D LD _ _ DA) as CA.
    set (h := of_le (S5 (big_enc r ++ point_enc D A ++ M)) mod n) in *.
    pose proof (n_gt1 C L) as Hn. assert (Hh : 0 <= h < n) by (apply Z.mod_pos_bound; lia).
    pose proof (cl_canon_on C L _ CA) as OA. pose proof (el_neg_canon C D LD _ CA) as CN. pose proof (cl_canon_on C L _ CN) as ON.
    assert (OS : 0 <= of_le (big_enc s)) by apply of_le_range.
    exists A', (c_add C (c_smul C (ed_neg D A') h) (c_smul C (c_g C) (of_le (big_enc s)))).
    split; [reflexivity|]. split; [apply (cl_add_canon C L); apply on_smul; auto using on_g; lia|]. split; [exact E|].
    fold h. set (S := c_smul C (c_g C) (of_le (big_enc s))).
    assert (OnS : on C S = true) by (apply on_smul; auto using on_g).
    rewrite (cl_comm C L (c_smul C (ed_neg D A') h) S) by (auto; apply on_smul; auto; lia).
    rewrite (cl_assoc C L) by (auto; apply on_smul; auto; lia).
    assert (Cancel : forall k, 0 <= k -> c_add C (c_smul C (ed_neg D A') k) (c_smul C A' k) = c_id C).
    { apply natlike_ind.
      - rewrite !(cl_smul_0 C L) by auto. apply (cl_id_l C L). apply cl_id_canon; auto.
      - intros k Hk IH. unfold Z.succ. rewrite !(cl_smul_S C L) by auto.
        assert (O1 : on C (c_smul C (ed_neg D A') k) = true) by (apply on_smul; auto). assert (O2 : on C (c_smul C A' k) = true) by (apply on_smul; auto).
        rewrite (cl_comm C L (ed_neg D A')) by auto. rewrite (cl_assoc C L) by (auto using on_add).
        rewrite <- (cl_assoc C L (ed_neg D A')) by auto. rewrite (cl_comm C L (ed_neg D A')) by auto. rewrite (el_neg C D LD _ CA).
        rewrite (cl_id_l C L) by (apply canon_smul; auto). exact IH. }
    rewrite Cancel by lia. rewrite (cl_comm C L) by (auto using on_id). apply (cl_id_l C L). apply canon_smul; auto using on_g.
  Qed.

  Lemma sf_loop_len js acc p r : sf_loop C js acc p = Ret (inr r) -> (forall s, acc = Some s -> length s = 32%nat) -> forall s, r = Some s -> length s = 32%nat.
  Proof.
    revert acc; induction js as [|j js IH]; intros acc E H; cbn [sf_loop] in E; [inversion E; subst; exact H|].
    destruct (j =? sp_i p)%nat; [eapply IH; eauto|].
    destruct (idx _ _) as [w|]; cbn [obind] in E; [|discriminate]. destruct (parse_wire w) as [[]|]; try discriminate.
    destruct (deref acc) as [a|]; cbn [obind] in E; [|discriminate]. apply (IH _ E). intros s Q. injection Q as <-. apply le_fixed_length.
  Qed.

  (** the JSON text of a signature can be read back, field by field *)
  Lemma sig_json_dec d : jdec (sig_json d) = Some (JObj (jbytes "signature" (sg_sig d) ++ jbytes "r" (sg_R d) ++ jbytes "s" (sg_S d) ++ jbytes "m" (sg_M d))).
  Proof.
    unfold sig_json. apply jdec_jenc. cbn [jok].
    assert (G : forall name b t, forallb safe_ch (str name) = true -> fold_right (fun kv P => (forallb safe_ch (fst kv) = true /\ jok (snd kv)) /\ P) True t ->
      fold_right (fun kv P => (forallb safe_ch (fst kv) = true /\ jok (snd kv)) /\ P) True (jbytes name b ++ t)).
    { intros name b t H1 H2. unfold jbytes. destruct b; [exact H2|]. cbn [app fold_right fst snd jok]. split; [split; [exact H1|apply b64_enc_safe]|exact H2]. }
    repeat (apply G; [reflexivity|]). rewrite <- (app_nil_r (jbytes "m" _)). apply G; [reflexivity|exact Logic.I].
  Qed.

  (** After any history of calls on a new session, if the final call returns Ok, then what it returns is the JSON of a
      signature record whose 64-byte signature is a valid Ed25519 signature, for the group key the session holds, of the
      message returned with it; the R and S fields are the two halves, and the message is the one the session was created
      with. *)
  Theorem C17_returned_signature_verifies HM spare N i pids msg kd rf path r0 p0 l p res p' :
    curve_laws C -> ed_laws C D -> (i < N)%nat ->
    sg_new C HM spare (Z.of_nat i) (Z.of_nat N) pids msg kd rf path = Ret (r0, Some p0) -> hist p0 l p ->
    call SFinal p = Ret (res, p') -> r_ok res = true ->
    exists d A m, sp_data p' = d /\ r_data res = sig_json d /\ sv_ed (sp_save p) = Some A /\ hex_dec msg = Some m /\
      ed25519_valid (point_enc D A) (sg_M d) (sg_sig d) /\
      of_be (sg_R d) = of_le (firstn 32 (sg_sig d)) /\ of_be (sg_S d) = of_le (skipn 32 (sg_sig d)) /\ sg_M d = strip0 m.
  Proof.
    intros L LD Hi New Hh E Ok.
    destruct (sg_new_inv _ _ _ _ _ _ _ _ _ _ _ _ Hi New) as (ids & kb & keys & c & priv & X & ded & ch & pubs & rfb & pks & peds & kp & src' & m & _ & _ & _ & _ & _ & _ & _ & _ & _ & _ & _ & _ & _ & Em & _ & P0).
    assert (F0 : sig_fits p0) by (subst p0; split; cbn; discriminate).
    destruct (hist_consts _ _ _ Hh) as [SK SF]. specialize (SF F0). destruct SF as [F1 F2]. destruct SK as (_ & _ & SM & _).
    assert (M0 : sp_m p0 = of_be m) by (subst p0; reflexivity).
    cbn [sop_run] in E. unfold sg_final in E.
    destruct (sf_loop _ _ _ _) as [[e|acc]|] eqn:Sf; cbn [obind] in E; [inversion E; subst; discriminate| |discriminate].
    destruct acc as [sum|]; cbn [obind deref] in E; [|discriminate].
    assert (LS : length sum = 32%nat) by (apply (sf_loop_len _ _ _ _ Sf F1 sum eq_refl)).
    change (sp_r (s_set_number 4 p)) with (sp_r p) in E. destruct (sp_r p) as [r|] eqn:Er; cbn [obind deref] in E; [|discriminate].
    specialize (F2 r eq_refl).
    match type of E with context [s_set_data ?x ?y] => set (d := x) in *; change (sv_ed (sp_save (s_set_data d y))) with (sv_ed (sp_save p)) in E end.
    destruct (sv_ed (sp_save p)) as [A|]; cbn [obind deref] in E; [|discriminate].
    destruct (ed_verify _ _ _ _ _ _ _) eqn:V; inversion E; subst; [|discriminate].
    exists d, A, m. split; [reflexivity|]. split; [reflexivity|]. split; [reflexivity|]. split; [exact Em|].
    apply (ed_verify_valid L LD) in V.
    assert (BS : big_enc (enc_to_big sum) = sum) by (apply C34_bytes_roundtrip; exact LS). rewrite BS in V.
    split; [exact V|].
    assert (FF : firstn 32 (sg_sig d) = big_enc r) by (apply firstn_app_len, big_enc_len).
    assert (KK : skipn 32 (sg_sig d) = sum) by (apply skipn_app_len, big_enc_len).
    split; [rewrite FF; cbn [sg_R d]; rewrite of_be_to_be_nonneg by lia; symmetry; apply (C34_scalar_roundtrip r F2)|].
    split; [rewrite KK; cbn [sg_S d]; rewrite of_be_to_be_nonneg by apply (enc_to_big_range sum LS); apply enc_to_big_le|].
    cbn [sg_M d]. change (sp_m (s_set_number 4 p)) with (sp_m p). rewrite SM, M0. apply to_be_of_be.
  Qed.
  (** and the JSON text reads back as that record *)
  Theorem C17_signature_json_reads_back d : sg_sig d <> [] -> sg_R d <> [] -> sg_S d <> [] -> sg_M d <> [] ->
    jdec (sig_json d) = Some (JObj [(str "signature", JStr (b64_enc (sg_sig d))); (str "r", JStr (b64_enc (sg_R d)));
                                    (str "s", JStr (b64_enc (sg_S d))); (str "m", JStr (b64_enc (sg_M d)))]).
  Proof. intros H1 H2 H3 H4. rewrite sig_json_dec. unfold jbytes. destruct (sg_sig d), (sg_R d), (sg_S d), (sg_M d); first [congruence|reflexivity]. Qed.

  (** ** C19: the bytes signed *)
  (** If the message does not begin with a zero byte, the signature returned (at any time, after any history) is over
      exactly the given bytes. *)
  Theorem C19_signed_bytes_are_given_partial HM spare N i pids msg kd rf path r0 p0 l p res p' m :
    curve_laws C -> ed_laws C D -> (i < N)%nat ->
    sg_new C HM spare (Z.of_nat i) (Z.of_nat N) pids msg kd rf path = Ret (r0, Some p0) -> hist p0 l p ->
    call SFinal p = Ret (res, p') -> r_ok res = true -> hex_dec msg = Some m -> nth_error m 0 <> Some (zb 0) ->
    sg_M (sp_data p') = m /\ exists A, sv_ed (sp_save p) = Some A /\ ed25519_valid (point_enc D A) m (sg_sig (sp_data p')).
  Proof.
    intros L LD Hi New Hh E Ok Em NZ.
    destruct (C17_returned_signature_verifies _ _ _ _ _ _ _ _ _ _ _ _ _ _ _ L LD Hi New Hh E Ok) as (d & A & m' & <- & _ & EA & Em' & V & _ & _ & EM).
    rewrite Em in Em'. injection Em' as <-.
    assert (S : strip0 m = m).
    { destruct m as [|b m]; [reflexivity|]. cbn [strip0]. destruct (Z.eqb_spec (bz b) 0) as [Z0|]; [|reflexivity].
      exfalso. apply NZ. cbn. f_equal. apply bz_inj. rewrite Z0. reflexivity. }
    rewrite S in EM. split; [exact EM|]. exists A. split; [exact EA|]. rewrite <- EM at 1. exact V.
  Qed.
  (** Two sessions created from hex messages that differ only in leading zero bytes are the same session, so a signature
      on one is a signature on the other. *)
  Theorem C19_leading_zeros_confused_refuted HM spare i N pids m kd rf path :
    sg_new C HM spare i N pids (hex_enc (zb 0 :: m)) kd rf path = sg_new C HM spare i N pids (hex_enc m) kd rf path.
  Proof. unfold sg_new. rewrite !hex_roundtrip. reflexivity. Qed.

  (** ** C20 *)
  (** a peer's encrypted nonce and its range proof are in the session's slots and verify *)
  Definition enc_checked (p : sparty) (ssid : bytes) (j : nat) (K : Z) : Prop :=
    exists kb eb m N pd, parse_wire (nth j (sp_r11 p) []) = Some (CS11 kb) /\ of_be kb = K /\
      parse_wire (nth j (sp_r12 p) []) = Some (CS12 eb) /\ encmsg_dec eb = Some m /\
      get_N p j = Ret N /\ get_ped p (sp_i p) = Ret pd /\ enc_verify C B (ssid ++ to_be (Z.of_nat j)) K N pd m = Ret true.
  (** a peer's nonce point and its proof are in the session's slots, the proof verifies for the ciphertext on record, and
      Q is the point with its small-order part removed *)
  Definition log_checked (p : sparty) (ssid : bytes) (j : nat) (K : Z) (Q : point) : Prop :=
    exists rx ry lb m N pd, parse_wire (nth j (sp_r2 p) []) = Some (CS2 rx ry lb) /\ logmsg_dec lb = Some m /\
      on C (of_be rx, of_be ry) = true /\ nth_error (sp_K p) j = Some (Some K) /\ get_N p j = Ret N /\ get_ped p (sp_i p) = Ret pd /\
      log_verify C B (ssid ++ to_be (Z.of_nat j)) K N pd (of_be rx, of_be ry) m = Ret true /\
      eight_inv_eight C (inv8 C) (of_be rx, of_be ry) = Ret Q.

  Lemma s2_one_inv j p p' : s2_one C B j p = Ret (None, p') ->
    exists K, enc_checked p (sp_ssid p) j K /\ p' = s_set_K (upd j (Some K) (sp_K p)) p /\ (j < length (sp_K p))%nat.
  Proof.
    unfold s2_one. intro E. destruct (parse_wire (nth j (sp_r11 p) [])) as [[]|] eqn:P1; try discriminate.
    destruct (store _ _ _) as [Ks|] eqn:S; cbn [obind] in E; [|discriminate]. apply store_Ret in S. destruct S as [Bd EK].
    rewrite Nat2Z.id in EK. rewrite idx_nat in E.
    change (sp_r12 (s_set_K Ks p)) with (sp_r12 p) in E.
    destruct (nth_error (sp_r12 p) j) as [w2|] eqn:E2; cbn [obind] in E; [|discriminate].
    destruct (parse_wire w2) as [[]|] eqn:P2; try discriminate.
    destruct (encmsg_dec _) as [m|] eqn:Ed; [|discriminate].
    destruct (get_N _ _) as [N|] eqn:EN; cbn [obind] in E; [|discriminate].
    destruct (get_ped _ _) as [pd|] eqn:Ep; cbn [obind] in E; [|discriminate].
    destruct (enc_verify _ _ _ _ _ _ _) as [ok|] eqn:V; cbn [obind] in E; [|discriminate].
    destruct ok; inversion E; subst p'. match type of P1 with _ = Some (CS11 ?x) => exists (of_be x) end. split; [|split; [rewrite EK; reflexivity|lia]].
    eexists _, _, m, N, pd. split; [exact P1|]. split; [reflexivity|].
    split; [exact (eq_trans (f_equal parse_wire (nth_error_nth _ _ [] E2)) P2)|]. split; [exact Ed|]. split; [exact EN|]. split; [exact Ep|exact V].
  Qed.
  Lemma s2_verify_inv js p p' : s2_verify C B js p = Ret (None, p') -> NoDup js ->
    (forall j, In j js -> j <> sp_i p -> exists K, enc_checked p (sp_ssid p) j K /\ nth_error (sp_K p') j = Some (Some K)) /\
    (forall j, ~ In j js -> nth_error (sp_K p') j = nth_error (sp_K p) j).
  Proof.
    revert p; induction js as [|j js IH]; intros p E ND; cbn [s2_verify] in E.
    - inversion E; subst. split; [intros j []|reflexivity].
    - inversion ND as [|? ? NI ND']; subst. destruct (Nat.eqb_spec j (sp_i p)) as [->|Ne].
      + destruct (IH _ E ND') as [A F]. split.
        * intros k [<-|Hk] Hi; [congruence|]. apply A; auto.
        * intros k Hk. apply F. intro; apply Hk; right; assumption.
      + destruct (s2_one C B j p) as [[e p1]|] eqn:One; cbn [obind] in E; [|discriminate]. destruct e; [discriminate|].
        apply s2_one_inv in One. destruct One as (K & CK & -> & HL). destruct (IH _ E ND') as [A F]. split.
        * intros k [<-|Hk] Hi.
          -- exists K. split; [exact CK|]. rewrite F by exact NI. cbn. apply nth_error_upd_same. exact HL.
          -- destruct (A k Hk Hi) as (K' & CK' & E'). exists K'. split; [exact CK'|exact E'].
        * intros k Hk. rewrite F by (intro; apply Hk; right; assumption). cbn. apply nth_error_upd_diff. intro; subst; apply Hk; left; reflexivity.
  Qed.

  (** Round 2 returns Ok only if the range proof of every other party verifies against the ciphertext it sent, its
      Paillier key and our Pedersen parameters; those ciphertexts are then on record for round 3. *)
  Theorem C20_round2_needs_range_proofs N i d p res p' : swf N i p -> call (SR2 d) p = Ret (res, p') -> r_ok res = true ->
    forall j, (j < N)%nat -> j <> i -> exists K, enc_checked p (sp_ssid p) j K /\ nth_error (sp_K p') j = Some (Some K).
  Proof.
    intros W E Ok j Hj Hji. cbn [sop_run] in E. unfold sg_r2_exec in E.
    destruct (s2_verify _ _ _ _) as [[e p1]|] eqn:V; cbn [obind] in E; [|discriminate].
    destruct e; [inversion E; subst; discriminate|].
    apply s2_verify_inv in V; [|apply seq_NoDup]. destruct V as [A _]. cbn [s_set_number sp_r11 sp_ssid sp_i] in A.
    destruct (A j) as (K & CK & EK); [apply in_seq; pose proof (sw_slots _ _ _ W K11) as Q; cbn in Q; lia|rewrite (sw_i _ _ _ W); exact Hji|].
    exists K. split; [exact CK|].
    destruct (deref (sp_k _)) as [k|]; cbn [obind] in E; [|discriminate].
    destruct (deref (base_mul _ _)) as [Ri|]; cbn [obind] in E; [|discriminate].
    destruct (get_N _ _) as [N'|]; cbn [obind] in E; [|discriminate].
    destruct (s2_loop _ _ _ _ _ _ _ _) as [[e p2]|] eqn:Lp; cbn [obind] in E; [|discriminate].
    apply s2_loop_frame in Lp. destruct Lp as (o & r2 & _ & _ & _ & ->). destruct e; inversion E; subst; exact EK.
  Qed.

  Lemma s3_one_inv j z R p R' : s3_one C D B j z R p = Ret (inr R') ->
    exists K Q, log_checked p (sp_ssid p) j K Q /\ R' = ext_add C D R z Q.
  Proof.
    unfold s3_one. intro E. destruct (parse_wire _) as [[]|] eqn:P; try discriminate.
    destruct (logmsg_dec _) as [m|] eqn:Ed; [|discriminate].
    unfold new_point in E. destruct (c_on C _ _) eqn:On; [|discriminate].
    rewrite idx_nat in E. destruct (nth_error (sp_K p) j) as [Ko|] eqn:EK; cbn [obind] in E; [|discriminate].
    destruct Ko as [K|]; cbn [obind deref] in E; [|discriminate].
    destruct (get_N _ _) as [N|] eqn:EN; cbn [obind] in E; [|discriminate].
    destruct (get_ped _ _) as [pd|] eqn:Ep; cbn [obind] in E; [|discriminate].
    destruct (log_verify _ _ _ _ _ _ _ _) as [ok|] eqn:V; cbn [obind] in E; [|discriminate].
    destruct ok; cbn [negb] in E; [|discriminate].
    destruct (eight_inv_eight _ _ _) as [Q|] eqn:E8; cbn [obind] in E; [|discriminate].
    inversion E; subst. exists K, Q. split; [|reflexivity].
    eexists _, _, _, m, N, pd. split; [exact P|]. split; [exact Ed|]. split; [exact On|]. split; [exact EK|]. split; [exact EN|].
    split; [exact Ep|]. split; [exact V|exact E8].
  Qed.
  Definition ext_sum (R : option point) (z : nat -> Z) (js : list nat) (Q : nat -> point) : option point :=
    fold_left (fun R j => ext_add C D R (z j) (Q j)) js R.
  Lemma s3_loop_inv js z R p R' : s3_loop C D B js z R p = Ret (inr R') -> NoDup js ->
    exists Q, (forall j, In j js -> j <> sp_i p -> exists K, log_checked p (sp_ssid p) j K (Q j)) /\
      R' = ext_sum R z (filter (fun j => negb (j =? sp_i p)%nat) js) Q.
  Proof.
    revert R; induction js as [|j js IH]; intros R E ND; cbn [s3_loop] in E.
    - inversion E; subst. exists (fun _ => c_id C). split; [intros j []|reflexivity].
    - inversion ND as [|? ? NI ND']; subst. cbn [filter]. destruct (Nat.eqb_spec j (sp_i p)) as [->|Ne]; cbn [negb].
      + destruct (IH _ E ND') as (Q & A & ER). exists Q. split; [|exact ER]. intros k [<-|Hk] Hi; [congruence|auto].
      + destruct (s3_one _ _ _ _ _ _ _) as [[e|R1]|] eqn:One; cbn [obind] in E; try discriminate.
        apply s3_one_inv in One. destruct One as (K & Q0 & CK & ->). destruct (IH _ E ND') as (Q & A & ER).
        exists (fun k => if (k =? j)%nat then Q0 else Q k). split.
        * intros k [<-|Hk] Hi; [rewrite Nat.eqb_refl; eauto|]. destruct (Nat.eqb_spec k j) as [->|]; [contradiction|auto].
        * unfold ext_sum. cbn [fold_left]. rewrite Nat.eqb_refl. rewrite ER. unfold ext_sum.
          assert (X : forall l R0, ~ In j l -> fold_left (fun R j => ext_add C D R (z j) (Q j)) l R0 =
                      fold_left (fun R j0 => ext_add C D R (z j0) (if (j0 =? j)%nat then Q0 else Q j0)) l R0).
          { induction l as [|a l IHl]; intros R0 Hn; [reflexivity|]. cbn [fold_left]. destruct (Nat.eqb_spec a j) as [->|]; [exfalso; apply Hn; left; reflexivity|].
            apply IHl. intro; apply Hn; right; assumption. }
          apply X. intro Hj. apply filter_In in Hj. tauto.
  Qed.
  Lemma ext_sum_nz R z js Q : (forall j, z j mod ed_p D <> 0) -> ext_sum (Some R) z js Q = Some (fold_left (c_add C) (map Q js) R).
  Proof.
    intro Hz. unfold ext_sum. revert R; induction js as [|j js IH]; intro R; [reflexivity|]. cbn [fold_left map].
    unfold ext_add at 2. destruct (Z.eqb_spec (z j mod ed_p D) 0) as [Q0|]; [destruct (Hz j Q0)|]. apply IH.
  Qed.

  (** Round 3 returns a partial signature only if every other party's nonce proof verifies for the ciphertext on record
      and for the nonce point whose cleaned form is added into R; and the value returned is exactly lambda * x + k mod n
      for the hash of that R, the group key and the message. *)
  Theorem C20_round3_needs_nonce_proofs N i z p res p' : swf N i p -> (forall j, z j mod ed_p D <> 0) ->
    call (SR3 z) p = Ret (res, p') -> r_ok res = true ->
    exists Q A, (forall j, (j < N)%nat -> j <> i -> exists K, log_checked p (sp_ssid p) j K (Q j)) /\
      sv_ed (sp_save p) = Some A /\
      let k := of_le (big_enc_opt (sp_k p)) in let x := of_le (big_enc_opt (sv_priv (sp_save p))) in
      let R := fold_left (c_add C) (map Q (others i N)) (c_smul C (c_g C) k) in
      let lam := of_le (S5 (ge_bytes R ++ point_enc D A ++ to_be (sp_m p))) mod n in
      (8 < n < 2 ^ 253 ->
       r_data res = wire_bytes (CS3 (to_be ((lam * x + k) mod n))) /\
       sp_r p' = Some (of_le (ge_bytes R)) /\ sp_si p' = Some (le_fixed 32 ((lam * x + k) mod n))).
  Proof.
    intros W Hz E Ok. cbn [sop_run] in E. unfold sg_r3_exec in E.
    destruct (s3_loop _ _ _ _ _ _ _) as [[e|R]|] eqn:Lp; cbn [obind] in E; [inversion E; subst; discriminate| |discriminate].
    apply s3_loop_inv in Lp; [|apply seq_NoDup]. destruct Lp as (Q & A & ER). cbn [s_set_number sp_r2 sp_i sp_ssid sp_k sp_save sp_m sp_r3] in *.
    rewrite (sw_i _ _ _ W) in *. rewrite (sw_slots _ _ _ W K2 : length (sp_r2 p) = N) in *.
    fold (others i N) in ER. rewrite (ext_sum_nz _ _ _ _ Hz) in ER. subst R.
    destruct (sv_ed (sp_save p)) as [Ag|] eqn:EA; cbn [obind deref] in E; [|discriminate].
    destruct (store _ _ _) as [r3|]; cbn [obind] in E; [|discriminate].
    exists Q, Ag. split; [intros j Hj Hji; apply A; [apply in_seq; lia|exact Hji]|]. split; [reflexivity|].
    cbn zeta. intro Hn. cbn [ext_bytes] in E.
    set (k := big_enc_opt (sp_k p)) in *. set (x := big_enc_opt (sv_priv (sp_save p))) in *.
    set (R := fold_left _ _ _) in *.
    assert (Bn : 2 ^ 253 < 2 ^ 256) by reflexivity.
    assert (LR : of_le (sc_reduce C (S5 (ge_bytes R ++ point_enc D Ag ++ to_be (sp_m p)))) = of_le (S5 (ge_bytes R ++ point_enc D Ag ++ to_be (sp_m p))) mod n).
    { unfold sc_reduce. apply of_le_le_fixed_small. rewrite pow256_32.
      match goal with |- _ <= ?a mod n < _ => pose proof (Z.mod_pos_bound a n ltac:(lia)) end. lia. }
    unfold sc_muladd in E. rewrite LR in E. set (lam := of_le _ mod n) in *.
    assert (SM : 0 <= (lam * of_le x + of_le k) mod n < 256 ^ Z.of_nat 32).
    { rewrite pow256_32. pose proof (Z.mod_pos_bound (lam * of_le x + of_le k) n ltac:(lia)). lia. }
    rewrite !enc_to_big_le, (of_le_le_fixed_small 32 _ SM) in E.
    destruct (Ret_pair_inj _ _ _ _ E) as [<- <-]. split; [reflexivity|]. split; reflexivity.
  Qed.

  (** K is only rewritten by rounds 1 and 2 *)
  Lemma op_K o p res p' : call o p = Ret (res, p') -> (forall r, o <> SR1 r) -> (forall d, o <> SR2 d) -> sp_K p' = sp_K p /\ sp_ssid p' = sp_ssid p.
  Proof.
    intros E N1 N2. destruct o as [r|d|z| |to|to|r from msg|r]; [destruct (N1 r eq_refl)|destruct (N2 d eq_refl)|..].
    - cbn [sop_run] in E. apply r3_frame in E. destruct E as (si & r & r3 & _ & _ & ->). auto.
    - cbn [sop_run] in E. apply final_frame in E. destruct E as (d & ->). auto.
    - cbn [sop_run] in E. unfold sg_get1 in E. destruct (idx _ _); cbn [obind] in E; [|discriminate]. inversion E; subst; auto.
    - cbn [sop_run] in E. unfold sg_get2 in E. destruct (idx _ _); cbn [obind] in E; [|discriminate]. inversion E; subst; auto.
    - apply C10_sign_accept_frame in E. destruct E as (k & sl & _ & -> & _). destruct k; auto.
    - assert (P : p' = p).
      { destruct r as [|[|[|r]]]; cbn [sop_run] in E; unfold sg_finish1, sg_finish2, sg_finish3 in E;
          try (destruct (s1_missing _ _ _); cbn [obind] in E; [|discriminate]); inversion E; reflexivity. }
      subst; auto.
  Qed.
  Lemma hist_K p0 l p : hist p0 l p -> (forall o r, In (o, r) l -> (forall x, o <> SR1 x) /\ (forall d, o <> SR2 d)) -> sp_K p = sp_K p0 /\ sp_ssid p = sp_ssid p0.
  Proof.
    induction 1 as [p|p l p1 o res p2 Hh IH Run]; intro NI; [auto|].
    destruct IH as [I1 I2]; [intros o' r' Hin; apply (NI o' r'); apply in_or_app; left; exact Hin|].
    destruct (NI o res) as [N1 N2]; [apply in_or_app; right; left; reflexivity|].
    destruct (op_K _ _ _ _ Run N1 N2) as [K1 K2]. split; congruence.
  Qed.
  (** The two checks are about the same ciphertext: if round 2 returned Ok, and later (whatever messages arrive in
      between, as long as rounds 1 and 2 are not run again) round 3 returns a partial signature, then for every other
      party the ciphertext whose range proof was checked in round 2 is the one its round-3 nonce proof is checked for. *)
  Theorem C20_same_ciphertext N i d z p res p1 l p2 res2 p3 : swf N i p -> (forall j, z j mod ed_p D <> 0) ->
    call (SR2 d) p = Ret (res, p1) -> r_ok res = true ->
    hist p1 l p2 -> (forall o r, In (o, r) l -> (forall x, o <> SR1 x) /\ (forall d, o <> SR2 d)) ->
    call (SR3 z) p2 = Ret (res2, p3) -> r_ok res2 = true ->
    forall j, (j < N)%nat -> j <> i -> exists K Q, enc_checked p (sp_ssid p) j K /\ log_checked p2 (sp_ssid p) j K Q.
  Proof.
    intros W Hz E Ok Hh NI E3 Ok3 j Hj Hji.
    destruct (C20_round2_needs_range_proofs N i d p res p1 W E Ok j Hj Hji) as (K & CK & EK).
    destruct (sop_frame C D B S5 _ _ _ _ N i E W) as [W1 _].
    assert (W2 : swf N i p2). { clear - Hh W1. induction Hh as [p|p l p1 o res p2 Hh IH Run]; [exact W1|]. apply (sop_frame C D B S5 _ _ _ _ N i Run). apply IH. exact W1. }
    destruct (hist_K _ _ _ Hh NI) as [HK HS].
    assert (S1 : sp_ssid p1 = sp_ssid p). { cbn [sop_run] in E. apply r2_frame in E. destruct E as (? & ? & ? & _ & _ & _ & _ & ->). reflexivity. }
    destruct (C20_round3_needs_nonce_proofs N i z p2 res2 p3 W2 Hz E3 Ok3) as (Q & A & LC & _).
    destruct (LC j Hj Hji) as (K' & CL). exists K, (Q j). split; [exact CK|].
    assert (K' = K). { destruct CL as (rx & ry & lb & m & N' & pd & _ & _ & _ & EK' & _). rewrite HK in EK'. congruence. }
    subst K'. rewrite HS, S1 in CL. exact CL.
  Qed.
End Calls.
