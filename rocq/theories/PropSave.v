(** PropSave.v -- C58: the file of saved key data.  What key generation writes is what signing reads; a file that was cut off or has
    anything but white space behind it is refused; whatever is accepted has all its points on the curve. *)
From Verif Require Import Base BigInt Text JsonStr Json PartyID Curve Save.

Ltac cg := match goal with H : Some _ = Some _ |- _ => injection H as <- <-; reflexivity end.
(** ** a value followed by more input: only a number at the very end can be read differently *)
Lemma skipws_app s b r t : skipws s = b :: r -> skipws (s ++ t) = b :: r ++ t.
Proof. induction s as [|c s IH]; cbn [skipws app]; [discriminate|]. destruct (is_ws c); [exact IH|]. intro H. assert (c = b /\ s = r) as [-> ->] by (split; congruence). reflexivity. Qed.
Lemma lit_dec_app l s u t : lit_dec l s = Some u -> lit_dec l (s ++ t) = Some (u ++ t).
Proof.
  unfold lit_dec. destruct (bytes_eqb l (firstn (length l) s)) eqn:E; [|discriminate]. intro H. assert (u = skipn (length l) s) as -> by congruence. clear H.
  apply bytes_eqb_eq in E. assert (L : (length l <= length s)%nat) by (rewrite E, firstn_length; lia).
  rewrite firstn_app, skipn_app. replace (length l - length s)%nat with O by lia. cbn [firstn skipn]. rewrite app_nil_r, <- E, bytes_eqb_refl. reflexivity.
Qed.
Lemma take_num_app s k b r t : take_num s = (k, b :: r) -> take_num (s ++ t) = (k, b :: r ++ t).
Proof.
  revert k. induction s as [|c s IH]; intro k; cbn [take_num app]; [discriminate|]. destruct (is_numch c).
  - destruct (take_num s) as [k0 u] eqn:E. intro H. assert (u = b :: r) as -> by congruence. rewrite (IH k0 eq_refl). assert (c :: k0 = k) as <- by congruence. reflexivity.
  - intro H. assert (k = [] /\ c :: s = b :: r) as [-> E] by (split; congruence). change (c :: s ++ t) with ((c :: s) ++ t). now rewrite E.
Qed.
Lemma jval_app f : (forall s v u t, jval f s = Some (v, u) -> (u <> [] \/ forall k, v <> JNum k) -> jval f (s ++ t) = Some (v, u ++ t)) /\
  (forall s l u t, jelems f s = Some (l, u) -> jelems f (s ++ t) = Some (l, u ++ t)) /\
  (forall s l u t, jmems f s = Some (l, u) -> jmems f (s ++ t) = Some (l, u ++ t)).
Proof.
  induction f as [|f [IV [IE IM]]]; [repeat split; discriminate|]. split; [|split].
  - intros s v u t H C. cbn [jval] in *. destruct (skipws s) as [|b r] eqn:S; [discriminate H|]. rewrite (skipws_app _ _ _ t S).
    destruct (bz b =? 123).
    { destruct (skipws r) as [|c r'] eqn:S2; [discriminate H|]. rewrite (skipws_app _ _ _ t S2). destruct (bz c =? 125); [cg|].
      destruct (jmems f r) as [[l u']|] eqn:E; [|discriminate H]. rewrite (IM _ _ _ t E). cg. }
    destruct (bz b =? 91).
    { destruct (skipws r) as [|c r'] eqn:S2; [discriminate H|]. rewrite (skipws_app _ _ _ t S2). destruct (bz c =? 93); [cg|].
      destruct (jelems f r) as [[l u']|] eqn:E; [|discriminate H]. rewrite (IE _ _ _ t E). cg. }
    destruct (bz b =? 34). { destruct (jstr_body r) as [[k u']|] eqn:E; [|discriminate H]. rewrite (jstr_body_app _ _ _ t E). cg. }
    destruct (bz b =? 116). { destruct (lit_dec (str "true") (b :: r)) eqn:E; [|discriminate H]. apply (lit_dec_app _ _ _ t) in E. cbn [app] in E. rewrite E. cg. }
    destruct (bz b =? 102). { destruct (lit_dec (str "false") (b :: r)) eqn:E; [|discriminate H]. apply (lit_dec_app _ _ _ t) in E. cbn [app] in E. rewrite E. cg. }
    destruct (bz b =? 110). { destruct (lit_dec (str "null") (b :: r)) eqn:E; [|discriminate H]. apply (lit_dec_app _ _ _ t) in E. cbn [app] in E. rewrite E. cg. }
    destruct (take_num (b :: r)) as [k u'] eqn:E. destruct (num_ok k) eqn:N; [|discriminate H]. assert (v = JNum k /\ u = u') as [-> ->] by (split; congruence).
    destruct C as [C|C]; [|destruct (C k eq_refl)]. destruct u' as [|c u']; [contradiction|]. apply (take_num_app _ _ _ _ t) in E. cbn [app] in E. rewrite E, N. reflexivity.
  - intros s l u t H. cbn [jelems] in *. destruct (jval f s) as [[v r]|] eqn:E; [|discriminate H]. destruct (skipws r) as [|c r'] eqn:S; [discriminate H|].
    rewrite (IV _ _ _ t E) by (left; intros ->; discriminate S). rewrite (skipws_app _ _ _ t S). destruct (bz c =? 93); [cg|]. destruct (bz c =? 44); [|discriminate H].
    destruct (jelems f r') as [[l' u']|] eqn:E2; [|discriminate H]. rewrite (IE _ _ _ t E2). cg.
  - intros s l u t H. cbn [jmems] in *. destruct (skipws s) as [|b s'] eqn:S; [discriminate H|]. rewrite (skipws_app _ _ _ t S). destruct (bz b =? 34); [|discriminate H].
    destruct (jstr_body s') as [[k r]|] eqn:EB; [|discriminate H]. rewrite (jstr_body_app _ _ _ t EB).
    destruct (skipws r) as [|c r1] eqn:S1; [discriminate H|]. rewrite (skipws_app _ _ _ t S1). destruct (bz c =? 58); [|discriminate H].
    destruct (jval f r1) as [[v r2]|] eqn:E; [|discriminate H]. destruct (skipws r2) as [|d r3] eqn:S3; [discriminate H|].
    rewrite (IV _ _ _ t E) by (left; intros ->; discriminate S3). rewrite (skipws_app _ _ _ t S3). destruct (bz d =? 125); [cg|]. destruct (bz d =? 44); [|discriminate H].
    destruct (jmems f r3) as [[l' u']|] eqn:E2; [|discriminate H]. rewrite (IM _ _ _ t E2). cg.
Qed.
(** more fuel does not change a result *)
Lemma jval_mono f : (forall g s x, (f <= g)%nat -> jval f s = Some x -> jval g s = Some x) /\
  (forall g s x, (f <= g)%nat -> jelems f s = Some x -> jelems g s = Some x) /\ (forall g s x, (f <= g)%nat -> jmems f s = Some x -> jmems g s = Some x).
Proof.
  induction f as [|f [IV [IE IM]]]; [repeat split; discriminate|].
  split; [|split]; (intros [|g] s x L H; [lia|]); assert (L' : (f <= g)%nat) by lia.
  - cbn [jval] in *. destruct (skipws s) as [|b r]; [discriminate H|]. destruct (bz b =? 123).
    { destruct (skipws r) as [|c r']; [discriminate H|]. destruct (bz c =? 125); [exact H|]. destruct (jmems f r) as [y|] eqn:E; [|discriminate H]. now rewrite (IM g _ _ L' E). }
    destruct (bz b =? 91); [|exact H].
    destruct (skipws r) as [|c r']; [discriminate H|]. destruct (bz c =? 93); [exact H|]. destruct (jelems f r) as [y|] eqn:E; [|discriminate H]. now rewrite (IE g _ _ L' E).
  - cbn [jelems] in *. destruct (jval f s) as [[v r]|] eqn:E; [|discriminate H]. rewrite (IV g _ _ L' E). destruct (skipws r) as [|c r']; [discriminate H|].
    destruct (bz c =? 93); [exact H|]. destruct (bz c =? 44); [|discriminate H]. destruct (jelems f r') as [y|] eqn:E2; [|discriminate H]. now rewrite (IE g _ _ L' E2).
  - cbn [jmems] in *. destruct (skipws s) as [|b s']; [discriminate H|]. destruct (bz b =? 34); [|discriminate H]. destruct (jstr_body s') as [[k r]|]; [|discriminate H].
    destruct (skipws r) as [|c r1]; [discriminate H|]. destruct (bz c =? 58); [|discriminate H]. destruct (jval f r1) as [[v r2]|] eqn:E; [|discriminate H].
    rewrite (IV g _ _ L' E). destruct (skipws r2) as [|d r3]; [discriminate H|]. destruct (bz d =? 125); [exact H|]. destruct (bz d =? 44); [|discriminate H].
    destruct (jmems f r3) as [y|] eqn:E2; [|discriminate H]. now rewrite (IM g _ _ L' E2).
Qed.
Lemma skipws_nil_iff s : skipws s = [] <-> forallb is_ws s = true.
Proof. induction s as [|b s IH]; cbn [skipws forallb]; [tauto|]. destruct (is_ws b); [exact IH|]. split; discriminate. Qed.

(** an object is read the same whatever follows *)
Lemma jdec_obj_app l s t : jval (S (length s)) s = Some (JObj l, []) -> jdec (s ++ t) = if forallb is_ws t then Some (JObj l) else None.
Proof.
  intro H. destruct (jval_app (S (length s))) as [A _]. apply (A _ _ _ t) in H; [|right; discriminate]. cbn [app] in H.
  unfold jdec. destruct (jval_mono (S (length s))) as [M _]. rewrite (M (S (length (s ++ t))) _ _ ltac:(rewrite app_length; lia) H).
  pose proof (skipws_nil_iff t) as W. destruct (forallb is_ws t).
  - rewrite (proj2 W eq_refl). reflexivity.
  - destruct (skipws t); [destruct W as [W _]; discriminate (W eq_refl)|reflexivity].
Qed.
Lemma save_enc_val s : jval (S (length (save_enc s))) (save_enc s) = Some (save_json s, []).
Proof.
  unfold save_enc. pose proof (jval_ok (save_json s) (jok_save s) (S (length (jenc (save_json s)))) [] ltac:(lia)) as H. rewrite app_nil_r in H. apply H. exact I.
Qed.

Section C58.
  Variable C : curve.
  (** what was written is read back (the points of generated keys are on the curve) *)
  Theorem C58_round_trip s : save_points_on C s -> save_dec C (save_enc s) = Some s.
  Proof. exact (save_roundtrip C s). Qed.
  (** so different data are different files *)
  Theorem C58_injective s s' : save_points_on C s -> save_points_on C s' -> save_enc s = save_enc s' -> s = s'.
  Proof. intros P P' E. assert (H := save_roundtrip C s P). rewrite E, (save_roundtrip C s' P') in H. congruence. Qed.
  (** nothing but white space (tab, line feed, carriage return, space) may follow *)
  Theorem C58_trailing s t : save_points_on C s ->
    (Forall (fun b => In (bz b) [9; 10; 13; 32]) t -> save_dec C (save_enc s ++ t) = Some s) /\
    (~ Forall (fun b => In (bz b) [9; 10; 13; 32]) t -> save_dec C (save_enc s ++ t) = None).
  Proof.
    intro P. assert (G : save_dec C (save_enc s ++ t) = if forallb is_ws t then Some s else None).
    { unfold save_dec. pose proof (save_enc_val s) as V. pose proof (save_roundtrip C s P) as R. unfold save_dec, save_enc in R. rewrite jdec_jenc in R by apply jok_save.
      unfold save_json in V. rewrite (jdec_obj_app _ _ t V). destruct (forallb is_ws t); [exact R|reflexivity]. }
    assert (W : forallb is_ws t = true <-> Forall (fun b => In (bz b) [9; 10; 13; 32]) t).
    { rewrite forallb_forall, Forall_forall. split; intros F b B; specialize (F b B); unfold is_ws in *; cbn [In] in *; lia. }
    rewrite G. split; intro F; [apply W in F; rewrite F; reflexivity|].
    destruct (forallb is_ws t); [exfalso; apply F, W; reflexivity|reflexivity].
  Qed.
  (** a file that was cut off anywhere is refused *)
  Theorem C58_truncated s p t : p ++ t = save_enc s -> t <> [] -> save_dec C p = None.
  Proof.
    intros E T. unfold save_dec. destruct (jdec p) as [v|] eqn:D; [|reflexivity]. exfalso. apply T. clear T.
    unfold jdec in D. destruct (jval (S (length p)) p) as [[v' u]|] eqn:V; [|discriminate D].
    assert (NN : forall k, v' <> JNum k).
    { intros k ->. cbn [jval] in V. destruct p as [|b p]; [discriminate V|]. assert (b = zb 123) as ->.
      { unfold save_enc, save_json in E. cbn [jenc app] in E. congruence. }
      change (skipws (zb 123 :: p)) with (zb 123 :: p) in V. cbv beta iota zeta in V. change (bz (zb 123) =? 123) with true in V. cbv beta iota in V.
      destruct (skipws p) as [|c r]; [discriminate V|]. destruct (bz c =? 125); [discriminate V|]. destruct (jmems _ p) as [[l u']|]; discriminate V. }
    destruct (jval_app (S (length p))) as [A _]. apply (A _ _ _ t) in V; [|right; exact NN].
    destruct (jval_mono (S (length p))) as [M _]. rewrite E in V. apply (M (S (length (save_enc s)))) in V; [|rewrite <- E, app_length; lia].
    rewrite save_enc_val in V. assert (Q : [] = u ++ t) by congruence. symmetry in Q. apply app_eq_nil in Q. tauto.
  Qed.
  Lemma dfields_inv {A} (f : A -> bytes * json -> option A) (Q : A -> Prop) l : (forall a kv b, Q a -> f a kv = Some b -> Q b) -> forall a b, Q a -> dfields f a l = Some b -> Q b.
  Proof.
    intro S. induction l as [|kv l IH]; intros a b Qa; unfold dfields; cbn [fold_left]; [congruence|].
    destruct (f a kv) as [a'|] eqn:E.
    - intro H. apply (IH a' b (S _ _ _ Qa E)). exact H.
    - assert (N : forall l, fold_left (fun acc kv0 => match acc with Some a0 => f a0 kv0 | None => None end) l None = None) by (clear; induction l; auto). rewrite N. discriminate.
  Qed.
  Lemma dpoint_on j p : dpoint C j = Some (Some p) -> on C p = true.
  Proof.
    unfold dpoint. destruct j as [| | | | |l]; try discriminate. destruct (dfields dpoint_field _ l) as [[nm [[x|] [y|]]]|]; try discriminate.
    destruct (_ || _); [|discriminate]. unfold new_point. destruct (c_on C x y) eqn:O; [|discriminate]. intro H. assert (p = (x, y)) as -> by congruence. exact O.
  Qed.
  Lemma dlist_in {A} (d : json -> option A) l r : dlist d l = Some r -> forall a, In a r -> exists j, d j = Some a.
  Proof.
    revert r. induction l as [|j l IH]; intros r; cbn [dlist]; [intros H a Ha; assert (r = []) as -> by congruence; destruct Ha|].
    destruct (d j) as [a0|] eqn:E; [|discriminate]. destruct (dlist d l) as [x|] eqn:El; [|discriminate]. intros H a Ha. assert (r = a0 :: x) as -> by congruence.
    destruct Ha as [<-|Ha]; [eauto|]. exact (IH x eq_refl a Ha).
  Qed.
  (** every point in accepted data is on the curve *)
  Theorem C58_points_on_curve b s : save_dec C b = Some s -> (forall p, In (Some p) (sv_pub s) -> on C p = true) /\ (forall p, sv_ed s = Some p -> on C p = true).
  Proof.
    unfold save_dec. destruct (jdec b) as [j|]; [|discriminate]. unfold save_of_json. 
    assert (Q0 : save_points_on C (new_save 0)) by (split; cbn; [intros p []|discriminate]).
    destruct j as [| | | | |l]; try discriminate; intro H.
    - assert (s = new_save 0) as -> by congruence. exact Q0.
    - revert H. apply (dfields_inv (dsave_field C) (save_points_on C)); [|exact Q0]. clear. intros a [k v] b [P1 P2]. unfold dsave_field.
      repeat match goal with
      | |- (if name_is _ k then _ else _) = _ -> _ => destruct (name_is _ k)
      | |- match dz v with _ => _ end = _ -> _ => destruct (dz v); [intro H; assert (E : b = _) by (symmetry; injection H; intro K; exact K); subst b; split; assumption|discriminate]
      end.
      + destruct v; (try (destruct (darr dz _) as [x|]; [|discriminate])); intro H; (assert (E : b = _) by (symmetry; injection H; intro K; exact K)); subst b; split; assumption.
      + destruct (darr dz v); [|discriminate]. intro H; (assert (E : b = _) by (symmetry; injection H; intro K; exact K)); subst b; split; assumption.
      + destruct (darr (dpoint C) v) as [x|] eqn:D; [|discriminate]. intro H; (assert (E : b = _) by (symmetry; injection H; intro K; exact K)); subst b. split; [|exact P2]. cbn [set_pub sv_pub].
        intros p Hp. destruct v; try discriminate D; cbn [darr] in D; [assert (x = []) as -> by congruence; destruct Hp|]. destruct (dlist_in _ _ _ D _ Hp) as [j Hj]. exact (dpoint_on j p Hj).
      + destruct (dpoint C v) as [x|] eqn:D; [|discriminate]. intro H; (assert (E : b = _) by (symmetry; injection H; intro K; exact K)); subst b. split; [exact P1|]. cbn [set_ed sv_ed].
        intros p ->. exact (dpoint_on v p D).
      + destruct (darr dpk v); [|discriminate]. intro H; (assert (E : b = _) by (symmetry; injection H; intro K; exact K)); subst b; split; assumption.
      + destruct (darr dped v); [|discriminate]. intro H; (assert (E : b = _) by (symmetry; injection H; intro K; exact K)); subst b; split; assumption.
      + intro H. assert (E : b = a) by congruence. subst b. split; assumption.
  Qed.
  (** missing members are not noticed here: an empty object is read as empty data *)
  Theorem C58_missing_members_accepted : save_dec C (str "{}") = Some (new_save 0) /\ save_dec C (str "null") = Some (new_save 0).
  Proof. split; reflexivity. Qed.
  (** a file with every kind of member meets the hypothesis *)
  Definition ex_save : save := {| sv_priv := Some 7; sv_share := Some (-3); sv_chain := Some [Some 5; None]; sv_ks := [Some 1; Some 2]; sv_pub := [None; None]; sv_ed := None;
    sv_pks := [Some (Some 15); None]; sv_peds := [Some {| pd_n := Some 77; pd_s := None; pd_t := Some 4 |}] |}.
  Theorem C58_example : save_points_on C ex_save /\ save_enc ex_save = str "{""PrivXi"":7,""ShareID"":-3,""ChainCodes"":[5,null],""Ks"":[1,2],""PubXj"":[null,null],""EdDSAPub"":null,""PaillierPKs"":[{""N"":15},null],""RingPedersenPKs"":[{""N"":77,""S"":null,""T"":4}]}".
  Proof. split; [split; cbn; [intros p [H|[H|[]]]; discriminate H|discriminate]|reflexivity]. Qed.
End C58.

(** *** which JSON keys are taken for a field.  One byte [a] of the input spells the letter [c] in one of three ways. *)
Definition same_letter (c a : byte) : Prop :=
  a = c \/ (65 <= bz c <= 90 /\ bz a = bz c + 32) \/ (97 <= bz c <= 122 /\ bz a = bz c - 32).
Inductive spells (c : byte) : bytes -> Prop :=
| sp_letter a : same_letter c a -> spells c [a]
| sp_long_s : bz c = 83 \/ bz c = 115 -> spells c [zb 197; zb 191]                 (* U+017F *)
| sp_kelvin : bz c = 75 \/ bz c = 107 -> spells c [zb 226; zb 132; zb 170].        (* U+212A *)

Lemma lower_bz a : bz (lower a) = if (65 <=? bz a) && (bz a <=? 90) then bz a + 32 else bz a.
Proof.
  unfold lower. destruct ((65 <=? bz a) && (bz a <=? 90)) eqn:E; [|reflexivity].
  rewrite bz_zb. apply Z.mod_small. pose proof (bz_range a). lia.
Qed.
Lemma lower_same c a : lower c = lower a <-> same_letter c a.
Proof.
  unfold same_letter. split.
  - intros H. apply (f_equal bz) in H. rewrite !lower_bz in H.
    destruct ((65 <=? bz c) && (bz c <=? 90)) eqn:E1; destruct ((65 <=? bz a) && (bz a <=? 90)) eqn:E2; try (left; apply bz_inj; lia); right; lia.
  - intros H. apply bz_inj. rewrite !lower_bz. destruct H as [-> | H]; [reflexivity|].
    destruct ((65 <=? bz c) && (bz c <=? 90)) eqn:E1; destruct ((65 <=? bz a) && (bz a <=? 90)) eqn:E2; lia.
Qed.
Lemma fold_letter a r : (bz a < 128)%Z -> fold_name (a :: r) = lower a :: fold_name r.
Proof.
  intros H. cbn [fold_name]. destruct r as [|c r1]; [reflexivity|].
  replace (bz a =? 197) with false by lia. cbn [andb].
  destruct r1 as [|d r2]; [reflexivity|]. replace (bz a =? 226) with false by lia. reflexivity.
Qed.
Lemma fold_long_s r : fold_name (zb 197 :: zb 191 :: r) = zb 115 :: fold_name r.
Proof. reflexivity. Qed.
Lemma fold_kelvin r : fold_name (zb 226 :: zb 132 :: zb 170 :: r) = zb 107 :: fold_name r.
Proof. reflexivity. Qed.

(** a key is taken for the field named [n] exactly when it is a spelling of [n], letter by letter *)
Theorem C58_names n k : Forall (fun c => bz c < 128) (str n) ->
  name_is n k = true <-> exists l, Forall2 spells (str n) l /\ k = concat l.
Proof.
  unfold name_is. rewrite bytes_eqb_eq. intros A. split.
  - generalize (str n). clear A n. assert (G : forall m (k : bytes) (w : bytes), (length k <= m)%nat -> map lower w = fold_name k ->
      exists l, Forall2 spells w l /\ k = concat l); [|intros w; apply (G (length k)); lia].
    clear k. induction m as [|m IH]; intros k w L H.
    + destruct k; [|cbn in L; lia]. destruct w; [|discriminate H]. exists []. split; [constructor|reflexivity].
    + destruct k as [|a r]; [destruct w; [|discriminate H]; exists []; split; [constructor|reflexivity]|].
      cbn [length] in L.
      assert (ONE : forall t, map lower w = lower a :: fold_name t -> t = r -> exists l, Forall2 spells w l /\ a :: r = concat l).
      { intros t H1 ->. destruct w as [|c w]; [discriminate H1|]. cbn [map] in H1.
        assert (H2 : lower c = lower a) by congruence. assert (H3 : map lower w = fold_name r) by congruence.
        destruct (IH r w ltac:(lia) H3) as (l & F & E). exists ([a] :: l). split; [|rewrite E; reflexivity].
        constructor; [|exact F]. apply sp_letter, lower_same, H2. }
      cbn [fold_name] in H. destruct r as [|c r1]; [apply (ONE [] H eq_refl)|].
      destruct ((bz a =? 197) && (bz c =? 191)) eqn:E1.
      { destruct w as [|x w]; [discriminate H|]. cbn [map] in H.
        assert (H2 : lower x = zb 115) by congruence. assert (H3 : map lower w = fold_name r1) by congruence.
        destruct (IH r1 w ltac:(cbn [length] in L; lia) H3) as (l & F & E). exists ([a; c] :: l). split; [|rewrite E; reflexivity].
        constructor; [|exact F]. replace a with (zb 197) by (apply bz_inj; change (bz (zb 197)) with 197; lia).
        replace c with (zb 191) by (apply bz_inj; change (bz (zb 191)) with 191; lia).
        apply sp_long_s. apply (f_equal bz) in H2. rewrite lower_bz in H2. change (bz (zb 115)) with 115 in H2.
        destruct ((65 <=? bz x) && (bz x <=? 90)); lia. }
      destruct r1 as [|d r2]; [apply (ONE _ H eq_refl)|].
      destruct ((bz a =? 226) && (bz c =? 132) && (bz d =? 170)) eqn:E2; [|apply (ONE _ H eq_refl)].
      destruct w as [|x w]; [discriminate H|]. cbn [map] in H.
      assert (H2 : lower x = zb 107) by congruence. assert (H3 : map lower w = fold_name r2) by congruence.
      destruct (IH r2 w ltac:(cbn [length] in L; lia) H3) as (l & F & E). exists ([a; c; d] :: l). split; [|rewrite E; reflexivity].
      constructor; [|exact F]. replace a with (zb 226) by (apply bz_inj; change (bz (zb 226)) with 226; lia).
      replace c with (zb 132) by (apply bz_inj; change (bz (zb 132)) with 132; lia).
      replace d with (zb 170) by (apply bz_inj; change (bz (zb 170)) with 170; lia).
      apply sp_kelvin. apply (f_equal bz) in H2. rewrite lower_bz in H2. change (bz (zb 107)) with 107 in H2.
      destruct ((65 <=? bz x) && (bz x <=? 90)); lia.
  - intros (l & F & ->). revert A F. generalize (str n). intros w A F. induction F as [|c s w l S F IH]; [reflexivity|].
    assert (A1 : bz c < 128) by (apply Forall_inv in A; exact A). specialize (IH (Forall_inv_tail A)).
    cbn [map concat]. destruct S as [a S|S|S].
    + cbn [app]. rewrite fold_letter, IH; [f_equal; apply lower_same, S|].
      destruct S as [-> | [S|S]]; lia.
    + cbn [app]. rewrite fold_long_s, IH. f_equal. apply bz_inj. rewrite lower_bz. change (bz (zb 115)) with 115.
      destruct ((65 <=? bz c) && (bz c <=? 90)) eqn:E; lia.
    + cbn [app]. rewrite fold_kelvin, IH. f_equal. apply bz_inj. rewrite lower_bz. change (bz (zb 107)) with 107.
      destruct ((65 <=? bz c) && (bz c <=? 90)) eqn:E; lia.
Qed.
(** the eight names of the saved data are ASCII; "kS", and the Kelvin sign followed by the long s, both name the field Ks *)
Theorem C58_names_example :
  Forall (fun n => Forall (fun c => bz c < 128) (str n))
    ["PrivXi"; "ShareID"; "ChainCodes"; "Ks"; "PubXj"; "EdDSAPub"; "PaillierPKs"; "RingPedersenPKs"]%string /\
  name_is "Ks" (str "kS") = true /\ name_is "Ks" [zb 226; zb 132; zb 170; zb 197; zb 191] = true /\ name_is "Ks" (str "Ka") = false.
Proof. split; [repeat constructor|]. split; [reflexivity|]. split; reflexivity. Qed.
(** escapes, a surrogate pair, a lone surrogate and a stray byte in one literal; a key spelled with an escape names its field; an
    undefined escape is refused *)
Theorem C58_strings_example :
  jstr_body (str "a\n\u004bs\uD83D\uDE00\ud83d!" ++ [zb 255] ++ str """, 1") =
    Some ([zb 97; zb 10; zb 75; zb 115; zb 240; zb 159; zb 152; zb 128; zb 239; zb 191; zb 189; zb 33; zb 239; zb 191; zb 189], str ", 1") /\
  jstr_body (str "a\x""") = None /\ jstr_body (str "a") = None /\
  (exists k, jstr_body (str "\u004Bs"":") = Some (k, str ":") /\ name_is "Ks" k = true).
Proof. split; [vm_compute; reflexivity|]. split; [vm_compute; reflexivity|]. split; [vm_compute; reflexivity|]. exists (str "Ks"). split; vm_compute; reflexivity. Qed.
