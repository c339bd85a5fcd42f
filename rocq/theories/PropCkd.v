(** PropCkd.v -- C22 (private and public child derivation agree) and C23 (wallet paths). *)
From Verif Require Import Base BigInt Text Curve Ckd ToyCurve.
From Coq Require Import Znumtheory.

Section C22.
  Variable C : curve.
  Hypothesis L : curve_laws C.
  Variable HM : bytes -> bytes -> bytes.
  Notation n := (c_n C).
  Notation G k := (gmul C k).

  Lemma split_in sep s part c : In part (split sep s) -> In c part -> In c s.
  Proof.
    revert part. induction s as [|a s IH]; intros part; cbn [split].
    - intros [<-|[]] [].
    - destruct (byte_eqb a sep).
      + intros [<-|I] H; [destruct H|]. right. eapply IH; eauto.
      + destruct (split sep s) as [|p ps] eqn:E.
        * intros [<-|[]] [->|[]]. left; reflexivity.
        * intros [<-|I] H.
          -- destruct H as [->|H]; [left; reflexivity|]. right. eapply IH; [left; reflexivity|exact H].
          -- right. eapply IH; [right; exact I|exact H].
  Qed.
  Lemma no_quote_parts path : ~ In quote path -> Forall (fun p => hardened p <> Ret true) (split slash path).
  Proof.
    intro H. apply Forall_forall. intros part I E. apply H. unfold hardened in E.
    destruct (rev part) as [|c r] eqn:R; [discriminate|]. inversion E as [E'].
    assert (In c part). { apply in_rev. rewrite R. left; reflexivity. }
    destruct (byte_eqb_spec c quote) as [->|]; [|discriminate]. eapply split_in; eauto.
  Qed.

  (** *** C22: for every path without a hardened marker, deriving the private share and deriving the public share
      agree: one succeeds iff the other does, and the child public share is the child private share times G.
      (A failing public derivation shows as a crash: see C23_hardened_pub_panics_refuted.) *)
  Theorem C22_priv_pub_agree x ded cc path : 0 <= x < 2 ^ 256 -> on C ded = true -> ~ In quote path ->
    (forall k, derive_priv C HM x (G x) ded cc path = Ret (Some k) ->
       length k = 32%nat /\ 0 <= of_be k < n /\ derive_pub C HM (G x) ded cc path = Ret (G (of_be k))) /\
    (forall P, derive_pub C HM (G x) ded cc path = Ret P ->
       exists k, derive_priv C HM x (G x) ded cc path = Ret (Some k) /\ P = G (of_be k)).
  Proof.
    intros Hx Hd Hq. destruct (derive_offset C L HM ded cc path Hd (no_quote_parts path Hq)) as [A B].
    pose proof (n_gt1 C L) as Hn. pose proof (cl_n_range C L) as [_ Hn2]. assert (2 ^ 253 < 256 ^ Z.of_nat 32) by reflexivity.
    rewrite (A x (G x) Hx (gmul_on C L x)), (B (G x) (gmul_canon C L x)).
    destruct (walk C HM (split slash path) ded 0 cc) as [[d|]|]; (split; [intros k E|intros P E]); try discriminate.
    - assert (R : 0 <= (x + d) mod n < n) by (apply Z.mod_pos_bound; lia).
      injection E as <-. rewrite be_fixed_length, of_be_be_fixed by lia. repeat split; try lia.
      rewrite (gmul_add C L), (gmul_mod C L). reflexivity.
    - assert (R : 0 <= (x + d) mod n < n) by (apply Z.mod_pos_bound; lia).
      injection E as <-. eexists. split; [reflexivity|]. rewrite of_be_be_fixed by lia.
      rewrite (gmul_add C L), (gmul_mod C L). reflexivity.
  Qed.

  (** the offset added by a path is the same for every share: it depends on root key, chain code and path only *)
  Theorem C22_same_offset ded cc path : on C ded = true -> ~ In quote path ->
    (exists d, (forall x X, 0 <= x < 2 ^ 256 -> on C X = true -> derive_priv C HM x X ded cc path = Ret (Some (be_fixed 32 ((x + d) mod n)))) /\
               (forall X, c_canon C X -> derive_pub C HM X ded cc path = Ret (c_add C X (G d)))) \/
    ((forall x X k, 0 <= x < 2 ^ 256 -> on C X = true -> derive_priv C HM x X ded cc path <> Ret (Some k)) /\
     (forall X P, c_canon C X -> derive_pub C HM X ded cc path <> Ret P)).
  Proof.
    intros Hd Hq. destruct (derive_offset C L HM ded cc path Hd (no_quote_parts path Hq)) as [A B].
    destruct (walk C HM (split slash path) ded 0 cc) as [[d|]|].
    - left. exists d. auto.
    - right. split; intros; [rewrite A by auto|rewrite B by auto]; discriminate.
    - right. split; intros; [rewrite A by auto|rewrite B by auto]; discriminate.
  Qed.

  (** the derived shares still belong to one group key: the sum of the derived public shares is the sum of the
      derived private shares times G, for any number of parties, each with its own chain code *)
  Definition psum (l : list point) : point := fold_right (c_add C) (c_id C) l.
  Theorem C22_derived_sum ded path (ps : list (Z * bytes)) (ks : list bytes) (Ps : list point) :
    on C ded = true -> ~ In quote path -> Forall (fun p => 0 <= fst p < 2 ^ 256) ps ->
    Forall2 (fun p k => derive_priv C HM (fst p) (G (fst p)) ded (snd p) path = Ret (Some k)) ps ks ->
    Forall2 (fun p P => derive_pub C HM (G (fst p)) ded (snd p) path = Ret P) ps Ps ->
    psum Ps = G (fold_right (fun k a => of_be k + a) 0 ks).
  Proof.
    intros Hd Hq HR H1. revert Ps. induction H1 as [|[x cc] k ps ks Hk H1 IH]; intros Ps H2; inversion H2 as [|? P ? Ps' HP H2']; subst.
    - cbn. symmetry. apply (gmul_0 C L).
    - inversion HR as [|? ? Hx HR']; subst. cbn [fst snd] in *.
      destruct (C22_priv_pub_agree x ded cc path Hx Hd Hq) as [A _]. destruct (A k Hk) as (_ & _ & E). rewrite E in HP. injection HP as <-.
      cbn [psum fold_right]. fold (psum Ps'). rewrite (IH HR' Ps' H2'). apply (gmul_add C L).
  Qed.
End C22.

(** *** C23 *)
Definition is_digit (c : byte) : Prop := 48 <= bz c <= 57.
(** s is a non-empty string of decimal digits with value v *)
Definition decimal (s : bytes) (v : Z) : Prop :=
  s <> [] /\ Forall is_digit s /\ v = fold_left (fun a c => 10 * a + (bz c - 48)) s 0.
(** a path component: optional sign, digits, optional hardening mark *)
Definition component (part : bytes) (v : Z) (h : bool) : Prop :=
  exists sign body, part = sign ++ body ++ (if h then [quote] else []) /\ decimal body v /\
    (sign = [] \/ sign = [zb 43] \/ sign = [zb 45] /\ v = 0).

Lemma digits10 s : forall a v, digits_val 10 a s = Some v -> Forall is_digit s /\ v = fold_left (fun a c => 10 * a + (bz c - 48)) s a.
Proof.
  induction s as [|c s IH]; intros a v H; cbn [digits_val] in H.
  - inversion H. split; [constructor|reflexivity].
  - destruct (hexdig c) as [d|] eqn:E; [|discriminate]. destruct (Z.ltb_spec d 10) as [Hd|]; [|discriminate].
    apply IH in H. destruct H as [F V]. 
    assert (is_digit c /\ d = bz c - 48) as [D ->].
    { unfold hexdig in E. unfold is_digit.
      destruct ((48 <=? bz c) && (bz c <=? 57)) eqn:E1; [inversion E; lia|].
      destruct ((97 <=? bz c) && (bz c <=? 102)) eqn:E2; [inversion E; lia|].
      destruct ((65 <=? bz c) && (bz c <=? 70)) eqn:E3; [inversion E; lia|]. discriminate. }
    split; [constructor; auto|]. cbn [fold_left]. rewrite V. f_equal. ring.
Qed.
Lemma digits10_nonneg s v : digits_val 10 0 s = Some v -> 0 <= v.
Proof. apply digits_val_nonneg; lia. Qed.
Lemma atoi_component s v : atoi s = Some v -> 0 <= v ->
  v < 2 ^ 63 /\ exists sign body, s = sign ++ body /\ decimal body v /\ (sign = [] \/ sign = [zb 43] \/ sign = [zb 45] /\ v = 0).
Proof.
  unfold atoi. destruct (parse_int 10 s) as [z|] eqn:E; [|discriminate].
  destruct ((- 2 ^ 63 <=? z) && (z <? 2 ^ 63)) eqn:R; [|discriminate]. intro H; inversion H; subst z. clear H. intro Hv.
  split; [lia|]. unfold parse_int in E. destruct s as [|c r]; [discriminate|].
  assert (K : forall t w, parse_nat 10 t = Some w -> decimal t w).
  { intros t w P. unfold parse_nat in P. destruct t as [|a t]; [discriminate|]. split; [discriminate|]. apply digits10. exact P. }
  destruct (Z.eqb_spec (bz c) 45) as [E5|].
  - destruct (parse_nat 10 r) as [w|] eqn:P; [|discriminate]. inversion E; subst v.
    assert (0 <= w). { unfold parse_nat in P. destruct r; [discriminate|]. eapply digits10_nonneg; exact P. }
    assert (w = 0) by lia. subst w. exists [c], r. split; [reflexivity|]. split; [apply K; exact P|]. right. right. split; [|reflexivity].
    f_equal. apply bz_inj. rewrite E5. reflexivity.
  - destruct (Z.eqb_spec (bz c) 43) as [E3|].
    + exists [c], r. split; [reflexivity|]. split; [apply K; exact E|]. right. left. f_equal. apply bz_inj. rewrite E3. reflexivity.
    + exists [], (c :: r). split; [reflexivity|]. split; [apply K; exact E|]. left; reflexivity.
Qed.

Section C23.
  Variable C : curve.
  Variable HM : bytes -> bytes -> bytes.

  Lemma hardened_split part h : hardened part = Ret h -> part = (if h then removelast part else part) ++ (if h then [quote] else []).
  Proof.
    unfold hardened. destruct (rev part) as [|c r] eqn:R; [discriminate|]. intro H. inversion H as [H'].
    apply (f_equal (@rev byte)) in R. rewrite rev_involutive in R. cbn [rev] in R.
    destruct (byte_eqb_spec c quote) as [->|]; [|rewrite app_nil_r; reflexivity].
    rewrite R at 1 2. rewrite removelast_last. reflexivity.
  Qed.

  Lemma priv_loop_components parts : forall pk pk', priv_loop C HM parts pk = Ret (Some pk') ->
    Forall (fun part => exists v h, component part v h /\ 0 <= v < 2 ^ 63 /\ v mod 2 ^ 32 < 2 ^ 31) parts.
  Proof.
    induction parts as [|part rest IH]; intros pk pk' H; [constructor|]. cbn [priv_loop] in H.
    destruct (hardened part) as [h|] eqn:Eh; cbn [obind] in H; [|discriminate].
    destruct (atoi _) as [idx|] eqn:Ea; [|discriminate]. destruct (Z.ltb_spec idx 0); [discriminate|].
    destruct (derive_priv1 C HM (idx mod 2 ^ 32) h pk) as [[pk1|]|] eqn:E1; cbn [obind] in H; try discriminate.
    constructor; [|eapply IH; exact H].
    exists idx, h. destruct (atoi_component _ _ Ea H0) as (Hr & sign & body & Es & D & Sg).
    split; [|split; [lia|]].
    - exists sign, body. split; [|auto]. rewrite (hardened_split part h Eh) at 1. rewrite Es. rewrite <- app_assoc. reflexivity.
    - unfold derive_priv1 in E1. destruct (Z.leb_spec (2 ^ 31) (idx mod 2 ^ 32)); [discriminate|]. assumption.
  Qed.

  (** a path is accepted only if every '/'-separated component is a decimal number, optionally signed and optionally
      hardened, whose low 32 bits are below 2^31 *)
  Theorem C23_accepted_paths_partial x X ded cc path k : derive_priv C HM x X ded cc path = Ret (Some k) ->
    Forall (fun part => exists v h, component part v h /\ 0 <= v < 2 ^ 63 /\ v mod 2 ^ 32 < 2 ^ 31) (split slash path).
  Proof.
    unfold derive_priv. destruct (2 ^ 256 <=? Z.abs x); [discriminate|].
    destruct (priv_loop _ _ _ _) as [[pk|]|] eqn:E; cbn [obind]; try discriminate. intros _. eapply priv_loop_components; exact E.
  Qed.

  Lemma priv_loop_no_panic parts : curve_laws C -> Forall (fun p => p <> []) parts ->
    forall pk, on C (x_pub pk) = true -> on C (x_ded pk) = true -> priv_loop C HM parts pk <> Panic.
  Proof.
    intros L. induction 1 as [|part rest Hp Hr IH]; intros pk O1 O2; cbn [priv_loop]; [discriminate|].
    destruct (hardened part) as [h|] eqn:Eh.
    2:{ unfold hardened in Eh. destruct (rev part) eqn:R; [|discriminate]. apply (f_equal (@rev byte)) in R. rewrite rev_involutive in R. contradiction. }
    cbn [obind]. destruct (atoi _) as [idx|]; [|discriminate]. destruct (idx <? 0); [discriminate|].
    unfold derive_priv1. destruct (2 ^ 31 <=? idx mod 2 ^ 32); [discriminate|]. destruct (x_depth pk =? 255); [discriminate|].
    cbv zeta. destruct (step_il C HM _ _) as [[il cc']|]; [|discriminate].
    rewrite (step_points_eq C L) by auto. cbn [obind]. destruct (_ || _); [discriminate|]. cbn [obind].
    apply IH; cbn [x_pub x_ded]; apply (cl_canon_on C L), (cl_add_canon C L); auto; apply gmul_on; auto.
  Qed.
  (** private derivation never crashes on a path without empty components, whatever the components are: it returns a
      key or an error *)
  Theorem C23_priv_no_panic x X ded cc path : curve_laws C -> Z.abs x < 2 ^ 256 -> on C X = true -> on C ded = true ->
    Forall (fun p => p <> []) (split slash path) -> derive_priv C HM x X ded cc path <> Panic.
  Proof.
    intros L Hx HX Hd F. unfold derive_priv. destruct (Z.leb_spec (2 ^ 256) (Z.abs x)); [lia|].
    match goal with |- context [priv_loop C HM _ ?k] => pose proof (priv_loop_no_panic (split slash path) L F k HX Hd) as N end.
    destruct (priv_loop _ _ _ _) as [[pk|]|]; cbn [obind]; [|discriminate|contradiction].
    destruct (32 <? length (x_priv pk))%nat; discriminate.
  Qed.

  (** two different (index, hardened) choices at one node never feed HMAC the same input *)
  Definition hmac_data (pk : xkey) (index : Z) (harden : bool) : bytes :=
    if harden then zb 0 :: x_priv pk ++ u32be (index + 2 ^ 31) else ser_comp (x_ded pk) ++ u32be index.
  Theorem C23_children_distinct pk i j h h' : 0 <= i < 2 ^ 31 -> 0 <= j < 2 ^ 31 ->
    hmac_data pk i h = hmac_data pk j h' -> i = j /\ h = h'.
  Proof.
    intros Hi Hj E.
    assert (T : forall a b u v, length (u32be u) = length (u32be v) -> a ++ u32be u = b ++ u32be v -> 0 <= u < 2 ^ 32 -> 0 <= v < 2 ^ 32 -> u = v).
    { intros a b u v Hl HE Hu Hv. assert (La : length a = length b) by (apply (f_equal (@length byte)) in HE; rewrite !app_length in HE; lia).
      assert (EE : u32be u = u32be v).
      { apply (f_equal (skipn (length a))) in HE. rewrite skipn_app, skipn_all, Nat.sub_diag in HE.
        rewrite La in HE. rewrite skipn_app, skipn_all, Nat.sub_diag in HE. exact HE. }
      apply (f_equal of_be) in EE. unfold u32be in EE. rewrite !of_be_be_fixed in EE by (change (256 ^ Z.of_nat 4) with (2 ^ 32); lia). exact EE. }
    assert (Hl : forall u v, length (u32be u) = length (u32be v)) by (intros; unfold u32be; rewrite !be_fixed_length; reflexivity).
    unfold hmac_data in E. destruct h, h'.
    - rewrite !app_comm_cons in E. apply T in E; auto; lia.
    - exfalso. apply (f_equal (@hd byte (zb 0))) in E. unfold ser_comp in E. cbn [hd app] in E. apply (f_equal bz) in E.
      destruct (Z.odd (py (x_ded pk))); vm_compute in E; discriminate.
    - exfalso. apply (f_equal (@hd byte (zb 0))) in E. unfold ser_comp in E. cbn [hd app] in E. apply (f_equal bz) in E.
      destruct (Z.odd (py (x_ded pk))); vm_compute in E; discriminate.
    - apply T in E; auto; lia.
  Qed.
  Theorem C23_step_uses_hmac_data pk i h k : derive_priv1 C HM i h pk = Ret (Some k) ->
    x_cc k = skipn 32 (HM (x_cc pk) (hmac_data pk i h)).
  Proof.
    unfold derive_priv1. destruct (2 ^ 31 <=? i); [discriminate|]. destruct (x_depth pk =? 255); [discriminate|].
    cbv zeta. unfold step_il. unfold hmac_data. destruct (_ =? 0); [discriminate|].
    destruct (step_points C _ _ _) as [[[p d]|]|]; cbn [obind]; try discriminate. intro H. inversion H. reflexivity.
  Qed.

  (** REFUTED "two different accepted index lists never denote the same child" / "decimal numbers below 2^31":
      indices are truncated to 32 bits, so 4294967296 and 0 are the same child for every key *)
  Theorem C23_index_truncated_refuted x X ded cc :
    derive_priv C HM x X ded cc (str "4294967296") = derive_priv C HM x X ded cc (str "0") /\
    derive_pub C HM X ded cc (str "4294967296") = derive_pub C HM X ded cc (str "0").
  Proof.
    unfold derive_priv, derive_pub.
    change (split slash (str "4294967296")) with [str "4294967296"]. change (split slash (str "0")) with [str "0"].
    cbn [priv_loop pub_loop]. change (hardened (str "4294967296")) with (Ret false). change (hardened (str "0")) with (Ret false). cbn [obind].
    change (atoi (str "4294967296")) with (Some 4294967296). change (atoi (str "0")) with (Some 0).
    change (4294967296 <? 0) with false. change (0 <? 0) with false. cbv iota.
    change (4294967296 mod 2 ^ 32) with 0. change (0 mod 2 ^ 32) with 0. split; reflexivity.
  Qed.
  (** REFUTED "everything else is rejected with an error": an empty component crashes, for every key *)
  Theorem C23_empty_component_panics_refuted x X ded cc : derive_priv C HM x X ded cc [] = Panic /\ derive_pub C HM X ded cc [] = Panic.
  Proof. unfold derive_priv, derive_pub. split; [destruct (2 ^ 256 <=? Z.abs x); reflexivity|reflexivity]. Qed.
  (** REFUTED: a hardened component crashes public derivation (it formats a nil error), for every key *)
  Theorem C23_hardened_pub_panics_refuted X ded cc : derive_pub C HM X ded cc (str "1'") = Panic.
  Proof. reflexivity. Qed.
  (** ... and so does every other rejected path: public derivation has no error result at all *)
  Theorem C23_pub_errors_are_panics X ded cc path :
    (exists P, derive_pub C HM X ded cc path = Ret P) \/ derive_pub C HM X ded cc path = Panic.
  Proof. destruct (derive_pub C HM X ded cc path) as [P|]; [left; exists P; reflexivity|right; reflexivity]. Qed.
  (** the conventional leading "m" is not accepted *)
  Theorem C23_m_prefix_rejected x X ded cc : Z.abs x < 2 ^ 256 -> derive_priv C HM x X ded cc (str "m/0/1") = Ret None.
  Proof. intro H. unfold derive_priv. destruct (Z.leb_spec (2 ^ 256) (Z.abs x)); [lia|]. reflexivity. Qed.
End C23.

(** *** concrete: on the toy curve the path 44/0/8 is accepted and the two derivations agree; 44'/0 is accepted
    privately *)
Definition toy_hmac (k d : bytes) : bytes := repeat (zb (fold_left (fun a c => (a * 3 + bz c) mod 251) (k ++ d) 0)) 64.
Theorem C22_C23_example :
  derive_priv toy toy_hmac 5 (gmul toy 5) (gmul toy 9) (str "cc") (str "44/0/8") = Ret (Some (be_fixed 32 4)) /\
  derive_pub toy toy_hmac (gmul toy 5) (gmul toy 9) (str "cc") (str "44/0/8") = Ret (gmul toy 4) /\
  (exists k, derive_priv toy toy_hmac 5 (gmul toy 5) (gmul toy 9) (str "cc") (str "4294967296") = Ret (Some k)) /\
  (exists k, derive_priv toy toy_hmac 5 (gmul toy 5) (gmul toy 9) (str "cc") (str "44'/0") = Ret (Some k)) /\
  on toy (gmul toy 9) = true /\ ~ In quote (str "44/0/8").
Proof. repeat split; try (vm_compute; reflexivity); try (eexists; vm_compute; reflexivity). intro H. vm_compute in H. intuition discriminate. Qed.
