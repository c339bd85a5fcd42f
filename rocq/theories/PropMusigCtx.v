(** PropMusigCtx.v -- C66: one context, any number of sessions, any sequence of calls. *)
From Coq Require Import Permutation Sorted.
From Verif Require Import Base BigInt NumTh AbGroup AbZ SecpPrimes Secp256k1 PropSecp PropEcdsa Bip32 Bip340 PropBip340 Musig PropMusig MusigCtx.
Local Notation N := n256k1.

Lemma F2_len {X Y} (R : X -> Y -> Prop) l l' : Forall2 R l l' -> length l = length l'. Proof. induction 1; cbn [length]; congruence. Qed.
Section Eqs.
  Variable TH : bytes -> bytes -> bytes.
  Variable srt : list E -> list E.
  Lemma agg_sorted ks tw : agg_keys TH srt (srt ks) false tw = agg_keys TH srt ks true tw. Proof. unfold agg_keys. cbn [sorted]. reflexivity. Qed.
  Lemma psign_sorted sn d cn ks tw m fast : psign TH srt sn d cn (srt ks) false tw m fast = psign TH srt sn d cn ks true tw m fast.
  Proof.
    assert (C : forall cn m, session TH srt cn (srt ks) false tw m = session TH srt cn ks true tw m) by (intros; unfold Musig.session; rewrite agg_sorted; cbn [sorted]; reflexivity).
    assert (V : forall s pn cn pk m, pverify TH srt s pn cn (srt ks) false tw pk m = pverify TH srt s pn cn ks true tw pk m) by (intros; unfold Musig.pverify; rewrite C; reflexivity).
    unfold Musig.psign. rewrite C. destruct (session TH srt cn ks true tw m) as [[c|]|]; cbn [obind]; rewrite ?V; reflexivity.
  Qed.
  Lemma combine_opt_agg ks ks' b b' tw m : agg_keys TH srt ks b tw = agg_keys TH srt ks' b' tw -> combine_opt TH srt ks b tw m = combine_opt TH srt ks' b' tw m.
  Proof. unfold combine_opt. intros ->. reflexivity. Qed.
  Lemma combine_opt_some ks b tw m a : agg_keys TH srt ks b tw = Ret (Some a) -> combine_opt TH srt ks b tw m = Ret (Some (a_fin a, a_acc a, m)).
  Proof. unfold combine_opt. intros ->. reflexivity. Qed.
  Lemma fold_perm l l' : Permutation l l' -> forall a, fold_left (fun a s => (a + s) mod N) l a = fold_left (fun a s => (a + s) mod N) l' a.
  Proof.
    induction 1 as [|x l l' _ IH|x y l|l l' l'' _ IH1 _ IH2]; intro a; cbn [fold_left]; auto; [|rewrite IH1; apply IH2]. f_equal. rewrite !Zplus_mod_idemp_l. f_equal. lia.
  Qed.
  Lemma combine_perm R l l' o : Permutation l l' -> combine TH R l o = combine TH R l' o.
  Proof. intro PM. unfold combine. rewrite (fold_perm l l' PM). reflexivity. Qed.
End Eqs.
Local Opaque Musig.agg_keys Musig.gen_nonces AbZ.zm Bip340.parse_xonly Bip340.xb Musig.psign Bip340.bverify Musig.combine_opt Musig.combine Musig.agg_nonces.
Section C66.
  Variable TH : bytes -> bytes -> bytes.
  Variable srt : list E -> list E.
  Hypothesis srt_perm : forall l, Permutation l (srt l).
  Local Notation step := (step TH srt).
  Local Notation run := (run TH srt).
  Local Notation answer := (answer TH srt).

  Lemma sorted_len b (l : list E) : length (sorted srt b l) = length l.
  Proof. destruct b; cbn [sorted]; [symmetry; apply Permutation_length, srt_perm|reflexivity]. Qed.
  (** ** one session under one call *)
  Definition next (c : ctx) (i : nat) (z : ses) (q : call) : ses :=
    match q with
    | CNonce j pn => if (j =? i)%nat then fst (reg_nonce c z pn) else z
    | CSign j m so f => if (j =? i)%nat then snd (fst (sign_session TH srt c z m so f)) else z
    | CCombine j s => if (j =? i)%nat then snd (fst (combine_session TH srt c z s)) else z
    | _ => z
    end.
  Lemma at_nth w j f i z : nth_error (w_ses w) i = Some z ->
    nth_error (w_ses (fst (at_ses w j f))) i = Some (if (j =? i)%nat then snd (fst (f (w_ctx w) z)) else z).
  Proof.
    intro H. unfold at_ses. destruct (nth_error (w_ses w) j) as [y|] eqn:Y.
    - destruct (f (w_ctx w) y) as [[c y'] r] eqn:F. cbn [fst w_ses]. rewrite nth_error_upd. assert (L : (j < length (w_ses w))%nat) by (apply nth_error_Some; rewrite Y; discriminate). apply Nat.ltb_lt in L. rewrite L, Bool.andb_true_r.
      destruct (Nat.eqb_spec j i) as [-> | NE]; [|exact H]. rewrite H in Y. assert (y = z) as <- by congruence. rewrite F. reflexivity.
    - destruct (Nat.eqb_spec j i) as [-> | NE]; [congruence|exact H].
  Qed.
  Lemma step_nth w q i z : nth_error (w_ses w) i = Some z -> nth_error (w_ses (fst (step w q))) i = Some (next (w_ctx w) i z q).
  Proof.
    intro H. destruct q; cbn [MusigCtx.step next fst snd]; try exact H.
    - destruct (register TH srt (w_ctx w) A) as [c r]. exact H.
    - unfold new_session. destruct (negb _); [exact H|]. destruct (session_nonce TH (w_ctx w) ext rnd); cbn [fst w_ses]; [|exact H]. rewrite nth_error_app1; [exact H|]. apply nth_error_Some. rewrite H. discriminate.
    - rewrite (at_nth _ _ _ _ _ H). destruct (i0 =? i)%nat; reflexivity.
    - rewrite (at_nth _ _ _ _ _ H). destruct (i0 =? i)%nat; reflexivity.
    - rewrite (at_nth _ _ _ _ _ H). destruct (reg_nonce (w_ctx w) z pn); reflexivity.
    - rewrite (at_nth _ _ _ _ _ H). reflexivity.
    - rewrite (at_nth _ _ _ _ _ H). reflexivity.
    - rewrite (at_nth _ _ _ _ _ H). destruct (i0 =? i)%nat; reflexivity.
  Qed.
  Lemma at_ctx w j f : (forall c z, fst (fst (f c z)) = c) -> w_ctx (fst (at_ses w j f)) = w_ctx w.
  Proof. intro H. unfold at_ses. destruct (nth_error (w_ses w) j) as [y|]; [|reflexivity]. specialize (H (w_ctx w) y). destruct (f (w_ctx w) y) as [[c y'] r]. exact H. Qed.
  Lemma at_len w j f : length (w_ses (fst (at_ses w j f))) = length (w_ses w).
  Proof. unfold at_ses. destruct (nth_error (w_ses w) j) as [y|]; [|reflexivity]. destruct (f (w_ctx w) y) as [[c y'] r]. apply upd_length. Qed.
  Lemma at_res w i f z : nth_error (w_ses w) i = Some z -> snd (at_ses w i f) = snd (f (w_ctx w) z).
  Proof. intro H. unfold at_ses. rewrite H. destruct (f (w_ctx w) z) as [[c y] r]. reflexivity. Qed.
  Lemma at_none w i f : nth_error (w_ses w) i = None -> at_ses w i f = (w, RPanic).
  Proof. intro H. unfold at_ses. rewrite H. reflexivity. Qed.
  (** ** the context once all signers are known *)
  Definition frozen (c c' : ctx) : Prop := c_d c' = c_d c /\ c_pub c' = c_pub c /\ c_sort c' = c_sort c /\ c_tw c' = c_tw c /\ c_num c' = c_num c /\ c_comb c' = c_comb c /\ Permutation (c_keys c) (c_keys c').
  Lemma frozen_refl c : frozen c c. Proof. unfold frozen. auto 10. Qed.
  Lemma frozen_trans a b c : frozen a b -> frozen b c -> frozen a c.
  Proof. intros (A1 & A2 & A3 & A4 & A5 & A6 & A7) (B1 & B2 & B3 & B4 & B5 & B6 & B7). unfold frozen. rewrite B1, B2, B3, B4, B5, B6. repeat (split; [assumption|]). exact (Permutation_trans A7 B7). Qed.
  Lemma frozen_full a b : frozen a b -> full b = full a.
  Proof. intros (_ & _ & _ & _ & E1 & _ & E2). unfold full. rewrite E1, (Permutation_length E2). reflexivity. Qed.
  Lemma frozen_keys c b : frozen c (with_keys c (sorted srt b (c_keys c)) (c_comb c)).
  Proof. unfold frozen, with_keys; cbn. repeat (split; [reflexivity|]). destruct b; [apply srt_perm|apply Permutation_refl]. Qed.
  Lemma sign_frozen c z m so f : frozen c (fst (fst (sign_session TH srt c z m so f))).
  Proof.
    unfold sign_session. destruct (z_local z) as [n|]; [|apply frozen_refl]. destruct (z_cn z) as [cn|]; [|apply frozen_refl]. destruct (psign TH srt (snd n) (c_d c) cn (c_keys c) so (c_tw c) m f) as [[[s R]|]|]; apply frozen_keys.
  Qed.
  Lemma combine_frozen c z s : frozen c (fst (fst (combine_session TH srt c z s))).
  Proof.
    unfold combine_session. destruct (_ =? _)%nat; [apply frozen_refl|]. destruct (_ =? _)%nat; [|apply frozen_refl]. destruct (z_our z) as [[s' R]|]; [|apply frozen_refl].
    destruct (sig_opts TH srt c (z_msg z)) as [o|]; [destruct (c_comb c) as [a|] eqn:CB; [destruct (bverify _ _ _ _)|]|]; cbn [fst]; rewrite <- ?CB; apply frozen_keys.
  Qed.
  Lemma at_frozen w j f : (forall c z, frozen c (fst (fst (f c z)))) -> frozen (w_ctx w) (w_ctx (fst (at_ses w j f))).
  Proof. intro H. unfold at_ses. destruct (nth_error (w_ses w) j) as [y|]; [|apply frozen_refl]. specialize (H (w_ctx w) y). destruct (f (w_ctx w) y) as [[c y'] r]. exact H. Qed.
  Lemma step_frozen w q : full (w_ctx w) = true -> frozen (w_ctx w) (w_ctx (fst (step w q))).
  Proof.
    intro F. destruct q; cbn [MusigCtx.step fst]; try apply frozen_refl.
    - unfold register. rewrite F. apply frozen_refl.
    - unfold new_session. rewrite F. cbn [negb]. destruct (session_nonce TH (w_ctx w) ext rnd); unfold frozen, with_early; cbn; auto 10.
    - apply at_frozen. intros. apply frozen_refl.
    - apply at_frozen. intros. apply frozen_refl.
    - apply at_frozen. intros c z. destruct (reg_nonce c z pn). apply frozen_refl.
    - apply at_frozen. intros. apply sign_frozen.
    - apply at_frozen. intros. apply combine_frozen.
    - apply at_frozen. intros. apply frozen_refl.
  Qed.
  Lemma run_frozen l : forall w, full (w_ctx w) = true -> frozen (w_ctx w) (w_ctx (run w l)).
  Proof.
    induction l as [|q l IH]; intros w F; [apply frozen_refl|]. cbn [MusigCtx.run]. pose proof (step_frozen w q F) as S. apply (frozen_trans _ _ _ S), IH. rewrite (frozen_full _ _ S). exact F.
  Qed.
  Lemma run_app w l l' : run w (l ++ l') = run (run w l) l'.
  Proof. revert w. induction l as [|q l IH]; intro w; [reflexivity|]. cbn [app MusigCtx.run]. apply IH. Qed.
  Lemma run_snoc w l q : run w (l ++ [q]) = fst (step (run w l) q). Proof. rewrite run_app. reflexivity. Qed.

  (** ** the nonce is used once *)
  Lemma local_gone c i z q : z_local z = None -> z_local (next c i z q) = None /\ z_msg (next c i z q) = z_msg z /\ z_our (next c i z q) = z_our z.
  Proof.
    intro H. destruct q; cbn [next]; auto.
    - destruct (_ =? _)%nat; auto. unfold reg_nonce. destruct (_ =? _); auto. destruct (_ =? _); auto. destruct (agg_nonces _); auto.
    - destruct (_ =? _)%nat; auto. unfold sign_session. rewrite H. auto.
    - destruct (_ =? _)%nat; auto. unfold combine_session. destruct (_ =? _)%nat; auto. destruct (_ =? _)%nat; auto. destruct (z_our z) as [[s' R]|] eqn:O; auto.
      destruct (sig_opts TH srt c (z_msg z)) as [o|]; [destruct (c_comb c) as [a|]; [destruct (bverify _ _ _ _)|]|]; auto.
  Qed.
  Lemma run_gone l : forall w i z, nth_error (w_ses w) i = Some z -> z_local z = None -> exists z', nth_error (w_ses (run w l)) i = Some z' /\ z_local z' = None /\ z_msg z' = z_msg z /\ z_our z' = z_our z.
  Proof.
    induction l as [|q l IH]; intros w i z H L; [exists z; auto|]. cbn [MusigCtx.run]. pose proof (step_nth w q i z H) as S. destruct (local_gone (w_ctx w) i z q L) as (L1 & M1 & O1).
    destruct (IH _ _ _ S L1) as (z' & H' & L' & M' & O'). exists z'. rewrite M', O'. auto.
  Qed.
  Definition used (r : res) : Prop := (exists s R, r = RSig s R) \/ r = RErr EOther \/ r = RErr EReuse.
  Lemma sign_used w i m so f : used (snd (step w (CSign i m so f))) -> exists z, nth_error (w_ses (fst (step w (CSign i m so f)))) i = Some z /\ z_local z = None.
  Proof.
    cbn [MusigCtx.step]. destruct (nth_error (w_ses w) i) as [z|] eqn:Z.
    - rewrite (at_res _ _ _ _ Z). intro U. eexists. split; [apply (at_nth _ i _ i z Z)|]. rewrite Nat.eqb_refl. unfold sign_session in *. destruct (z_local z) as [n|] eqn:L; [|exact L].
      destruct (z_cn z) as [cn|]; [|destruct U as [(s & R & U)|[U|U]]; discriminate U]. destruct (psign _ _ _ _ _ _ _ _ _ _) as [[[s R]|]|]; [reflexivity|reflexivity|]. destruct U as [(s & R & U)|[U|U]]; discriminate U.
    - rewrite (at_none _ _ _ Z). intros [(s & R & U)|[U|U]]; discriminate U.
  Qed.
  (** Once Sign has returned a signature, or failed after its checks, every later Sign of the session is refused, whatever is
      called in between: the secret nonce goes into at most one signature. *)
  Theorem C66_sign_once w i m so f : used (snd (step w (CSign i m so f))) -> forall l m' so' f', answer (fst (step w (CSign i m so f))) l (CSign i m' so' f') = RErr EReuse.
  Proof.
    intros U l m' so' f'. destruct (sign_used _ _ _ _ _ U) as (z & Z & L). destruct (run_gone l _ _ _ Z L) as (z' & Z' & L' & _). unfold MusigCtx.answer. cbn [MusigCtx.step]. rewrite (at_res _ _ _ _ Z'). unfold sign_session. rewrite L'. reflexivity.
  Qed.
  (** Sign before all nonces are known is refused and changes nothing *)
  Theorem C66_sign_early w i m so f : snd (step w (CSign i m so f)) = RErr ENoCombinedNonce -> fst (step w (CSign i m so f)) = w.
  Proof.
    cbn [MusigCtx.step]. destruct (nth_error (w_ses w) i) as [z|] eqn:Z; [|rewrite (at_none _ _ _ Z); reflexivity]. rewrite (at_res _ _ _ _ Z). unfold at_ses. rewrite Z. unfold sign_session. destruct (z_local z) as [n|]; [|discriminate].
    destruct (z_cn z) as [cn|]; [destruct (psign _ _ _ _ _ _ _ _ _ _) as [[[s R]|]|]; discriminate|]. intros _. cbn [fst]. rewrite (upd_id _ _ _ Z). destruct w. reflexivity.
  Qed.
  (** PublicNonce after Sign dereferences the dropped nonce *)
  Theorem C66_public_after_sign_refuted w i m so f : used (snd (step w (CSign i m so f))) -> forall l, answer (fst (step w (CSign i m so f))) l (CPublic i) = RPanic.
  Proof.
    intros U l. destruct (sign_used _ _ _ _ _ U) as (z & Z & L). destruct (run_gone l _ _ _ Z L) as (z' & Z' & L' & _). unfold MusigCtx.answer. cbn [MusigCtx.step]. rewrite (at_res _ _ _ _ Z'). cbn [snd]. rewrite L'. reflexivity.
  Qed.

  (** ** the final signature *)
  (** what the calls so far say about a session: [our] came from a Sign call with the message *)
  Definition signed (c0 : ctx) (cs : list call) (i : nat) (m : bytes) (s : Z) (R : E) : Prop :=
    exists l so f l', cs = l ++ CSign i m so f :: l' /\ answer (World c0 []) l (CSign i m so f) = RSig s R.
  Lemma signed_snoc c0 cs i m s R q : signed c0 cs i m s R -> signed c0 (cs ++ [q]) i m s R.
  Proof. intros (l & so & f & l' & -> & A). exists l, so, f, (l' ++ [q]). split; [rewrite <- app_assoc; reflexivity|exact A]. Qed.
  Definition good (c0 : ctx) (cs : list call) (c : ctx) (i : nat) (z : ses) : Prop :=
    (forall s R, z_our z = Some (s, R) -> z_local z = None /\ signed c0 cs i (z_msg z) s R) /\
    (forall sg, z_final z = Some sg -> length (z_sigs z) = length (c_keys c) /\ z_our z <> None /\ exists a, c_comb c = Some a /\ bverify TH sg (z_msg z) (a_fin a) = true).
  Definition inv (c0 : ctx) (cs : list call) (w : world) : Prop := (w_ses w <> [] -> full (w_ctx w) = true) /\ forall i z, nth_error (w_ses w) i = Some z -> good c0 cs (w_ctx w) i z.
  Lemma good_frozen c0 cs c c' i z q : frozen c c' -> good c0 cs c i z -> good c0 (cs ++ [q]) c' i z.
  Proof.
    intros (_ & _ & _ & _ & _ & CB & PM) [GO GF]. split.
    - intros s R O. destruct (GO s R O) as [L S]. split; [exact L|]. apply signed_snoc, S.
    - intros sg F. destruct (GF sg F) as (LE & NO & a & CA & BV). split; [rewrite LE; apply Permutation_length, PM|]. split; [exact NO|]. exists a. rewrite CB. auto.
  Qed.
  Lemma next_good c0 cs w i z q : w = run (World c0 []) cs -> full (w_ctx w) = true -> nth_error (w_ses w) i = Some z -> good c0 cs (w_ctx w) i z -> good c0 (cs ++ [q]) (w_ctx (fst (step w q))) i (next (w_ctx w) i z q).
  Proof.
    intros W F Z GD. pose proof (step_frozen w q F) as FR. pose proof (good_frozen c0 cs _ _ i z q FR GD) as GZ.
    destruct q; cbn [next]; try exact GZ; (destruct (Nat.eqb_spec i0 i) as [-> | NE]; [|exact GZ]).
    - unfold reg_nonce. destruct (_ =? _); [exact GZ|]. destruct (_ =? _); [|exact GZ]. destruct (agg_nonces _); exact GZ.
    - assert (AN : snd (step w (CSign i m sort fast)) = snd (sign_session TH srt (w_ctx w) z m sort fast)) by (cbn [MusigCtx.step]; exact (at_res w i (fun c y => sign_session TH srt c y m sort fast) z Z)).
      set (r := snd (step w (CSign i m sort fast))) in *. set (c' := w_ctx (fst (step w (CSign i m sort fast)))) in *. assert (AW : answer (World c0 []) cs (CSign i m sort fast) = r) by (unfold MusigCtx.answer; rewrite <- W; reflexivity). clearbody r c'.
      unfold sign_session in *. destruct (z_local z) as [n|] eqn:L; [|exact GZ]. destruct (z_cn z) as [cn|]; [|exact GZ]. destruct GD as [GO GF]. destruct GZ as [GO' GF'].
      assert (NO : z_our z = None) by (destruct (z_our z) as [[s R]|]; [destruct (GO s R eq_refl) as [K _]; rewrite L in K; discriminate K|reflexivity]).
      destruct (psign _ _ _ _ _ _ _ _ _ _) as [[[s R]|]|]; cbn [fst snd] in *; [| |split; assumption].
      + split; cbn [z_our z_local z_msg z_final z_sigs].
        * intros s' R' O. assert (s' = s) as -> by congruence. assert (R' = R) as -> by congruence. split; [reflexivity|]. exists cs, sort, fast, []. split; [reflexivity|]. rewrite AW. exact AN.
        * intros sg FI. destruct (GF sg FI) as (_ & NN & _). congruence.
      + split; cbn [z_our z_local z_msg z_final z_sigs]; [intros s R O; congruence|exact GF'].
    - unfold combine_session. destruct (Nat.eqb_spec (length (z_sigs z)) (length (c_keys (w_ctx w)))) as [AL|AL]; [exact GZ|]. destruct GD as [GO GF]. destruct GZ as [GO' GF'].
      assert (FN : z_final z = None) by (destruct (z_final z) as [sg|]; [destruct (GF sg eq_refl) as [K _]; contradiction|reflexivity]).
      destruct (Nat.eqb_spec (length (z_sigs z ++ [s])) (length (c_keys (w_ctx w)))) as [AL'|AL']; [|split; cbn [z_our z_final z_local z_msg z_sigs fst snd]; [exact GO'|rewrite FN; discriminate]].
      destruct (z_our z) as [[s' R]|] eqn:O; [|split; cbn [z_our z_final z_local z_msg z_sigs fst snd]; [intros x y K; apply GO'; rewrite ?O; exact K|rewrite FN; discriminate]].
      destruct FR as (_ & _ & _ & _ & _ & CB & PM). destruct (sig_opts TH srt (w_ctx w) (z_msg z)) as [o|]; [|split; cbn [z_our z_final z_local z_msg z_sigs fst snd]; [intros x y K; apply GO'; rewrite ?O; exact K|rewrite FN; discriminate]].
      destruct (c_comb (w_ctx w)) as [a|] eqn:CA; [|split; cbn [z_our z_final z_local z_msg z_sigs fst snd]; [intros x y K; apply GO'; rewrite ?O; exact K|rewrite FN; discriminate]]. destruct (bverify _ _ _ _) eqn:BV; [|split; cbn [z_our z_final z_local z_msg z_sigs fst snd]; [intros x y K; apply GO'; rewrite ?O; exact K|rewrite FN; discriminate]].
      split; cbn [fst snd z_our z_local z_msg z_final z_sigs]; [intros x y K; apply GO'; rewrite ?O; exact K|]. intros sg SG. match type of SG with Some ?x = _ => assert (sg = x) as -> by congruence end. split; [rewrite AL'; apply Permutation_length, PM|]. split; [rewrite ?O; discriminate|]. exists a. rewrite CB. auto.
  Qed.
  Lemma nth_step_old w q i z : nth_error (w_ses (fst (step w q))) i = Some z -> (exists y, nth_error (w_ses w) i = Some y) \/ (full (w_ctx w) = true /\ i = length (w_ses w) /\ exists n, z = Ses (Some n) [fst n] None (repeat (zb 0) 32) None [] None).
  Proof.
    intro H. destruct (nth_error (w_ses w) i) as [y|] eqn:Y; [left; eauto|right].
    assert (LI : (length (w_ses w) <= i)%nat) by (apply nth_error_None; exact Y). assert (LI' : (i < length (w_ses (fst (step w q))))%nat) by (apply nth_error_Some; rewrite H; discriminate).
    destruct q; cbn [MusigCtx.step fst] in *; try (exfalso; clear - LI LI'; lia); try (rewrite at_len in LI'; exfalso; lia).
    - destruct (register TH srt (w_ctx w) A) as [c r]. exfalso. cbn [fst w_ses] in LI'. clear - LI LI'; lia.
    - unfold new_session in *. destruct (full (w_ctx w)); cbn [negb fst] in *; [|exfalso; clear - LI LI'; lia]. split; [reflexivity|]. destruct (session_nonce TH (w_ctx w) ext rnd) as [n|e]; cbn [fst w_ses] in *; [|clear - LI LI'; lia]. rewrite app_length in LI'. cbn in LI'. assert (i = length (w_ses w)) as -> by lia. split; [reflexivity|].
      rewrite nth_error_app2, Nat.sub_diag in H by lia. exists n. cbn [nth_error] in H. congruence.
  Qed.
  Lemma ses_nil w q : w_ses w = [] -> w_ses (fst (step w q)) <> [] -> full (w_ctx w) = true.
  Proof.
    intros E NE. destruct (w_ses (fst (step w q))) as [|z r] eqn:S; [congruence|]. destruct (nth_step_old w q 0 z) as [(y & Y)|(F & _)]; [rewrite S; reflexivity|rewrite E in Y; discriminate Y|exact F].
  Qed.
  Lemma reach_inv c0 cs : inv c0 cs (run (World c0 []) cs).
  Proof.
    induction cs as [|q cs IH] using rev_ind; [split; [intro K; contradiction K; reflexivity|intros i z H; destruct i; discriminate H]|]. rewrite run_snoc. remember (run (World c0 []) cs) as w eqn:W. destruct IH as [IF IG].
    assert (FF : w_ses (fst (step w q)) <> [] -> full (w_ctx w) = true).
    { intro NE. destruct (w_ses w) as [|z r] eqn:S; [exact (ses_nil w q S NE)|apply IF; discriminate]. }
    split.
    - intro NE. pose proof (FF NE) as F. rewrite (frozen_full _ _ (step_frozen w q F)). exact F.
    - intros i z H. assert (F : full (w_ctx w) = true) by (apply FF; destruct (w_ses (fst (step w q))); [destruct i; discriminate H|discriminate]).
      destruct (nth_step_old w q i z H) as [(y & Y)|(_ & _ & n & ->)].
      + pose proof (step_nth w q i y Y) as S. assert (z = next (w_ctx w) i y q) as -> by congruence. apply (next_good c0 cs w i y q W F Y (IG i y Y)).
      + split; cbn [z_our z_final z_local z_msg z_sigs fst snd]; discriminate.
  Qed.
  (** A final signature is valid under the combined key, for the message of the one Sign call of the session that succeeded. *)
  Theorem C66_final c0 cs i sg : answer (World c0 []) cs (CFinal i) = RFinal (Some sg) ->
    exists m s R A, signed c0 cs i m s R /\ answer (World c0 []) cs CCombined = RKey A /\ bverify TH sg m A = true.
  Proof.
    unfold MusigCtx.answer at 1. cbn [MusigCtx.step]. destruct (reach_inv c0 cs) as [_ IG]. destruct (nth_error (w_ses (run (World c0 []) cs)) i) as [z|] eqn:Z; [|rewrite (at_none _ _ _ Z); discriminate].
    rewrite (at_res _ _ _ _ Z). cbn [snd]. intro H. assert (F : z_final z = Some sg) by congruence. destruct (IG i z Z) as [GO GF]. destruct (GF sg F) as (_ & NO & a & CA & BV). destruct (z_our z) as [[s R]|] eqn:O; [|contradiction NO; reflexivity].
    exists (z_msg z), s, R, (a_fin a). split; [apply GO; reflexivity|]. split; [|exact BV]. unfold MusigCtx.answer. cbn [MusigCtx.step snd]. rewrite CA. reflexivity.
  Qed.
  Lemma final_next c0 cs c i z q sg : good c0 cs c i z -> z_final z = Some sg -> z_final (next c i z q) = Some sg.
  Proof.
    intros [GO GF] F. destruct (GF sg F) as (AL & NO & _). destruct q; cbn [next]; auto; (destruct (_ =? _)%nat; [|exact F]).
    - unfold reg_nonce. destruct (_ =? _); [exact F|]. destruct (_ =? _); [|exact F]. destruct (agg_nonces _); exact F.
    - unfold sign_session. destruct (z_our z) as [[s R]|]; [|contradiction NO; reflexivity]. destruct (GO s R eq_refl) as [L _]. rewrite L. exact F.
    - unfold combine_session. rewrite AL, Nat.eqb_refl. exact F.
  Qed.
  Lemma final_eq w i sg : snd (step w (CFinal i)) = RFinal (Some sg) <-> exists z, nth_error (w_ses w) i = Some z /\ z_final z = Some sg.
  Proof.
    cbn [MusigCtx.step]. destruct (nth_error (w_ses w) i) as [z|] eqn:Z.
    - rewrite (at_res _ _ _ _ Z). cbn [snd]. split; [intro H; exists z; split; [reflexivity|congruence]|intros (y & Y & F); congruence].
    - rewrite (at_none _ _ _ Z). split; [discriminate|intros (y & Y & _); discriminate Y].
  Qed.
  (** A final signature stays what it is *)
  Theorem C66_final_stable c0 cs i sg : answer (World c0 []) cs (CFinal i) = RFinal (Some sg) -> forall l, answer (World c0 []) (cs ++ l) (CFinal i) = RFinal (Some sg).
  Proof.
    intros H l. induction l as [|q l IH] using rev_ind; [rewrite app_nil_r; exact H|]. rewrite app_assoc. unfold MusigCtx.answer in *. rewrite run_snoc. apply final_eq in IH. destruct IH as (z & Z & F). apply final_eq. eexists. split; [apply step_nth, Z|].
    apply (final_next c0 (cs ++ l)); [|exact F]. apply (reach_inv c0 (cs ++ l)), Z.
  Qed.
  (** CombineSig returns true exactly when it has just produced the final signature *)
  Theorem C66_combine_true c0 cs i s : answer (World c0 []) cs (CCombine i s) = RBool true <-> answer (World c0 []) cs (CFinal i) = RFinal None /\ exists sg, answer (World c0 []) (cs ++ [CCombine i s]) (CFinal i) = RFinal (Some sg).
  Proof.
    unfold MusigCtx.answer. rewrite run_snoc. destruct (reach_inv c0 cs) as [_ IG]. generalize dependent (run (World c0 []) cs). intros w IG. destruct (nth_error (w_ses w) i) as [z|] eqn:Z.
    - specialize (IG i z Z). destruct IG as [GO GF]. pose proof (step_nth w (CCombine i s) i z Z) as S. cbn [next] in S. rewrite Nat.eqb_refl in S. cbn [MusigCtx.step] in *. rewrite (at_res _ _ _ _ Z), (at_res w i (fun c z0 => (c, z0, RFinal (z_final z0))) z Z). rewrite (at_res _ _ _ _ S). cbn [snd]. clear S.
      unfold combine_session. destruct (Nat.eqb_spec (length (z_sigs z)) (length (c_keys (w_ctx w)))) as [AL|AL]; [split; [discriminate|cbn [fst snd]; intros (E1 & sg & E2); congruence]|].
      assert (FN : z_final z = None) by (destruct (z_final z) as [sg|]; [destruct (GF sg eq_refl) as [K _]; contradiction|reflexivity]). rewrite FN.
      destruct (Nat.eqb _ _); [|cbn; split; [discriminate|intros (_ & sg & E2); discriminate E2]]. destruct (z_our z) as [[s' R]|]; [|cbn; split; [discriminate|intros (_ & sg & E2); discriminate E2]].
      destruct (sig_opts TH srt (w_ctx w) (z_msg z)) as [o|]; [|cbn; split; [discriminate|intros (_ & sg & E2); discriminate E2]]. destruct (c_comb (w_ctx w)) as [a|]; [|cbn; split; [discriminate|intros (_ & sg & E2); discriminate E2]].
      destruct (bverify _ _ _ _); [|cbn; split; [discriminate|intros (_ & sg & E2); discriminate E2]]. cbn [fst snd z_final]. split; [intros _; split; [reflexivity|eexists; reflexivity]|reflexivity].
    - cbn [MusigCtx.step]. rewrite !(at_none _ _ _ Z). split; [discriminate|intros (K & _); discriminate K].
  Qed.

  (** ** the key *)
  (** Once a session exists the combined key is fixed and no signer can be added. *)
  Theorem C66_key_fixed w ext rnd i : snd (step w (CNew ext rnd)) = RSession i -> let w' := fst (step w (CNew ext rnd)) in
    forall l, answer w' l CCombined = answer w' [] CCombined /\ (forall A, answer w' l (CRegister A) = RErr EAllSigners) /\ answer w' l CNumSigners = answer w' [] CNumSigners.
  Proof.
    intros H w' l. cbn [MusigCtx.step] in H. assert (F : full (w_ctx w) = true) by (unfold new_session in H; destruct (full (w_ctx w)); [reflexivity|discriminate H]).
    assert (F' : full (w_ctx w') = true) by (unfold w'; rewrite (frozen_full _ _ (step_frozen w (CNew ext rnd) F)); exact F). pose proof (run_frozen l w' F') as FR. clearbody w'.
    pose proof (frozen_full _ _ FR) as FF. destruct FR as (_ & _ & _ & _ & _ & CB & PM). unfold MusigCtx.answer. cbn [MusigCtx.step MusigCtx.run snd]. rewrite CB, (Permutation_length PM). split; [reflexivity|]. split; [|reflexivity].
    intro A. unfold register. rewrite FF, F'. reflexivity.
  Qed.
  (** ** nonces *)
  (** The early nonce goes to the first session and to no other: it is gone from the context afterwards. *)
  Theorem C66_early w n ext rnd i : answer w [] CEarly = RNonces n -> snd (step w (CNew ext rnd)) = RSession i ->
    let w' := fst (step w (CNew ext rnd)) in answer w' [] (CPublic i) = RPub (fst n) /\ forall l, answer w' l CEarly = RErr ENoEarlyNonce.
  Proof.
    unfold MusigCtx.answer. cbn [MusigCtx.step MusigCtx.run snd]. destruct (c_early (w_ctx w)) as [n'|] eqn:EA; [|discriminate]. intro EN. assert (n' = n) as -> by congruence. clear EN.
    unfold new_session. destruct (full (w_ctx w)) eqn:F; cbn [negb fst snd]; [|discriminate]. unfold session_nonce. rewrite EA. cbn [fst snd]. intro H. assert (i = length (w_ses w)) as -> by congruence. split.
    - erewrite at_res; [|cbn [w_ses]; rewrite nth_error_app2, Nat.sub_diag by lia; reflexivity]. reflexivity.
    - intro l. match goal with |- context [run ?x l] => set (w' := x) end. assert (G0 : c_early (w_ctx w') = None /\ full (w_ctx w') = true) by (split; [reflexivity|exact F]). clearbody w'. clear - G0 srt_perm. assert (X : c_early (w_ctx (run w' l)) = None); [|rewrite X; reflexivity].
      revert w' G0. induction l as [|q l IH]; intros w [EA F]; [exact EA|]. cbn [MusigCtx.run]. apply IH. split; [|rewrite (frozen_full _ _ (step_frozen w q F)); exact F].
      assert (AT : forall j f, (forall c z, c_early (fst (fst (f c z))) = c_early c) -> c_early (w_ctx (fst (at_ses w j f))) = None).
      { intros j f K. unfold at_ses. destruct (nth_error (w_ses w) j) as [y|]; [|exact EA]. specialize (K (w_ctx w) y). destruct (f (w_ctx w) y) as [[c y'] r]. cbn [fst w_ctx] in *. congruence. }
      destruct q; cbn [MusigCtx.step fst]; try exact EA.
      + unfold register. rewrite F. exact EA.
      + unfold new_session. rewrite F. cbn [negb]. destruct (session_nonce _ _ _ _); reflexivity.
      + apply AT. reflexivity.
      + apply AT. reflexivity.
      + apply AT. intros c z. destruct (reg_nonce c z pn). reflexivity.
      + apply AT. intros c z. unfold sign_session. destruct (z_local z) as [k|]; [|reflexivity]. destruct (z_cn z) as [cn|]; [|reflexivity]. destruct (psign _ _ _ _ _ _ _ _ _ _) as [[[s R]|]|]; reflexivity.
      + apply AT. intros c z. unfold combine_session. destruct (_ =? _)%nat; [reflexivity|]. destruct (_ =? _)%nat; [|reflexivity]. destruct (z_our z) as [[s' R]|]; [|reflexivity].
        destruct (sig_opts TH srt c (z_msg z)) as [o|]; [destruct (c_comb c) as [a|]; [destruct (bverify _ _ _ _)|]|]; reflexivity.
      + apply AT. reflexivity.
  Qed.
  (** Without an early nonce the session uses the nonce it is given, or one generated from fresh randomness, the signing key and the combined key. *)
  Theorem C66_session_nonce w ext rnd i : answer w [] CEarly = RErr ENoEarlyNonce -> snd (step w (CNew ext rnd)) = RSession i ->
    (forall n, ext = Some n -> answer (fst (step w (CNew ext rnd))) [] (CPublic i) = RPub (fst n)) /\
    (ext = None -> exists r A, rnd = Some r /\ answer w [] CCombined = RKey A /\ answer (fst (step w (CNew ext rnd))) [] (CPublic i) = RPub (fst (gen_nonces TH r (be_fixed 32 (c_d (w_ctx w))) (xb A) [] []))).
  Proof.
    unfold MusigCtx.answer. cbn [MusigCtx.step MusigCtx.run snd]. destruct (c_early (w_ctx w)) as [n'|] eqn:EA; [discriminate|]. intros _. unfold new_session. destruct (full (w_ctx w)) eqn:F; cbn [negb fst snd]; [|discriminate]. unfold session_nonce. rewrite EA.
    assert (PU : forall n c l, snd (at_ses (World c (l ++ [Ses (Some n) [fst n] None (repeat (zb 0) 32) None [] None])) (length l) (fun c z => (c, z, match z_local z with Some n0 => RPub (fst n0) | None => RPanic end))) = RPub (fst n)).
    { intros n c l. erewrite at_res; [|cbn [w_ses]; rewrite nth_error_app2, Nat.sub_diag by lia; reflexivity]. reflexivity. }
    destruct ext as [n|].
    - cbn [fst snd]. intro H. assert (i = length (w_ses w)) as -> by congruence. split; [|discriminate]. intros n' EQ. assert (n' = n) as -> by congruence. apply PU.
    - destruct (c_comb (w_ctx w)) as [a|]; [|discriminate]. destruct rnd as [r|]; [|discriminate]. cbn [fst snd]. intro H. assert (i = length (w_ses w)) as -> by congruence. split; [discriminate|]. intros _. exists r, (a_fin a). split; [reflexivity|]. split; [reflexivity|]. apply PU.
  Qed.
  (** ** registration *)
  Lemma key_eqb_iff A B : key_eqb A B = true <-> A = B.
  Proof.
    unfold key_eqb. split; [|intros ->; rewrite !Z.eqb_refl; reflexivity]. intro H. apply Bool.andb_true_iff in H. destruct H as [X Y]. apply Z.eqb_eq in X, Y. apply aff_inj. destruct (aff A), (aff B). cbn in X, Y. congruence.
  Qed.
  Definition regs (l : list E) : list call := map CRegister l.
  Lemma combine_ok c : In (c_pub c) (c_keys c) -> combine_keys TH srt c = match agg_keys TH srt (c_keys c) (c_sort c) (c_tw c) with
    | Panic => (with_keys c (sorted srt (c_sort c) (c_keys c)) (c_comb c), Some RPanic) | Ret None => (with_keys c (sorted srt (c_sort c) (c_keys c)) None, Some (RErr EOther))
    | Ret (Some a) => (with_keys c (sorted srt (c_sort c) (c_keys c)) (Some a), None) end.
  Proof. intro I. unfold combine_keys. assert (X : existsb (fun k => key_eqb k (c_pub c)) (c_keys c) = true) by (apply existsb_exists; exists (c_pub c); split; [exact I|apply key_eqb_iff; reflexivity]). rewrite X. reflexivity. Qed.
  Lemma run_regs l : forall c, (Z.of_nat (length (c_keys c) + length l) < c_num c) -> run (World c []) (regs l) = World (with_keys c (c_keys c ++ l) (c_comb c)) [].
  Proof.
    induction l as [|A l IH]; intros c L; [cbn [regs map MusigCtx.run]; rewrite app_nil_r; destruct c; reflexivity|]. cbn [regs map MusigCtx.run MusigCtx.step]. cbn [length] in L.
    assert (R : register TH srt c A = (with_keys c (c_keys c ++ [A]) (c_comb c), RBool false)).
    { unfold register, full. cbn [with_keys c_keys c_num]. rewrite app_length. cbn [length]. assert (X : (Z.of_nat (length (c_keys c)) =? c_num c) = false) by lia. assert (Y : (Z.of_nat (length (c_keys c) + 1) =? c_num c) = false) by lia. rewrite X, Y. reflexivity. }
    cbn [w_ctx w_ses]. rewrite R. cbn [fst]. change (map CRegister l) with (regs l). rewrite IH by (cbn [with_keys c_keys c_num]; rewrite app_length; cbn [length]; lia). cbn [with_keys c_keys c_num c_comb c_d c_pub c_sort c_tw c_early]. rewrite <- app_assoc. reflexivity.
  Qed.
  (** A context for n signers: the own key comes first; the n-1 registrations answer false until the last, which combines the
      keys and answers true; the combined key is the aggregate of all keys in the order of registration (sorted first, if
      asked); before the last one there is none. *)
  Theorem C66_register d sort o rnd c A l B : new_ctx TH srt d sort o rnd = inl c -> o_keys o = None -> parse_xonly (xb (zm d G)) = Some A -> o_num o = Z.of_nat (length l) + 2 ->
    let w := World c [] in
    answer w (regs l) CCombined = RErr ENotEnoughSigners /\ (forall l1 B' l2, l = l1 ++ B' :: l2 -> answer w (regs l1) (CRegister B') = RBool false) /\
    match agg_keys TH srt (A :: l ++ [B]) sort (tweak_of o) with
    | Ret (Some a) => answer w (regs l) (CRegister B) = RBool true /\ answer w (regs (l ++ [B])) CCombined = RKey (a_fin a) /\ answer w (regs (l ++ [B])) CKeys = RKeys (sorted srt sort (A :: l ++ [B]))
    | Ret None => answer w (regs l) (CRegister B) = RErr EOther
    | Panic => answer w (regs l) (CRegister B) = RPanic
    end.
  Proof.
    intros NC OK PX NU w. unfold new_ctx in NC. rewrite PX, OK in NC. assert (X : (o_num o =? 0) = false) by lia. assert (Y : (o_num o <? 0) = false) by lia. rewrite X, Y in NC.
    assert (CE : exists e, c = Ctx d A sort (tweak_of o) (o_num o) [A] None e).
    { destruct (o_early o); [destruct rnd as [r|]; [|discriminate NC]; exists (Some (gen_nonces TH r [] [] [] []))|exists None]; congruence. }
    destruct CE as (e & CE). assert (RG : forall l', (length l' <= length l)%nat -> run w (regs l') = World (with_keys c (A :: l') None) []).
    { intros l' L. unfold w. rewrite run_regs; subst c; cbn [c_keys c_num length]; [reflexivity|]. lia. }
    unfold MusigCtx.answer. rewrite (RG l) by lia. split; [reflexivity|]. split.
    - intros l1 B' l2 ->. rewrite app_length in RG, NU. cbn [length] in RG, NU. rewrite RG by lia. cbn [MusigCtx.step w_ctx w_ses]. unfold register, full. subst c. cbn [with_keys c_keys c_num]. rewrite app_length. cbn [length].
      assert (X1 : (Z.of_nat (S (length l1)) =? o_num o) = false) by lia. assert (Y1 : (Z.of_nat (S (length l1) + 1) =? o_num o) = false) by lia. rewrite X1, Y1. reflexivity.
    - assert (LAST : register TH srt (with_keys c (A :: l) None) B = match combine_keys TH srt (with_keys c (A :: l ++ [B]) None) with (c', None) => (c', RBool true) | (c', Some r) => (c', r) end).
      { unfold register, full. subst c. cbn [with_keys c_keys c_num c_comb]. change ((A :: l) ++ [B]) with (A :: l ++ [B]). cbn [length]. rewrite app_length. cbn [length]. assert (X1 : (Z.of_nat (S (length l)) =? o_num o) = false) by lia. assert (Y1 : (Z.of_nat (S (length l + 1)) =? o_num o) = true) by lia. rewrite X1, Y1. reflexivity. }
      rewrite combine_ok in LAST by (subst c; left; reflexivity). assert (AG : agg_keys TH srt (c_keys (with_keys c (A :: l ++ [B]) None)) (c_sort (with_keys c (A :: l ++ [B]) None)) (c_tw (with_keys c (A :: l ++ [B]) None)) = agg_keys TH srt (A :: l ++ [B]) sort (tweak_of o)) by (subst c; reflexivity). rewrite AG in LAST. clear AG.
      destruct (agg_keys TH srt (A :: l ++ [B]) sort (tweak_of o)) as [[a|]|]; cbn [MusigCtx.step w_ctx]; rewrite LAST; [|reflexivity|reflexivity]. split; [reflexivity|].
      unfold regs. rewrite map_app. cbn [map]. rewrite run_snoc. change (map CRegister l) with (regs l). rewrite (RG l) by lia. cbn [MusigCtx.step w_ctx w_ses]. rewrite LAST. cbn [fst snd w_ctx]. split; [reflexivity|]. subst c. reflexivity.
  Qed.
  (** With sorting, every order of registration gives the same combined key; so all signers agree on it. *)
  Theorem C66_register_order d d' sort o o' rnd rnd' c c' A A' l l' B B' : (forall l, StronglySorted (fun A B : E => fst (aff A) <= fst (aff B)) (srt l)) ->
    new_ctx TH srt d sort o rnd = inl c -> new_ctx TH srt d' sort o' rnd' = inl c' -> o_keys o = None -> o_keys o' = None -> tweak_of o' = tweak_of o -> parse_xonly (xb (zm d G)) = Some A -> parse_xonly (xb (zm d' G)) = Some A' ->
    o_num o = Z.of_nat (length l) + 2 -> o_num o' = Z.of_nat (length l') + 2 -> Forall (fun A => A <> ezero /\ odd_y A = false) (A :: l ++ [B]) -> (if sort then Permutation (A :: l ++ [B]) (A' :: l' ++ [B']) else A :: l ++ [B] = A' :: l' ++ [B']) ->
    answer (World c []) (regs l) (CRegister B) = RBool true -> answer (World c' []) (regs l') (CRegister B') = RBool true /\ exists K, answer (World c []) (regs (l ++ [B])) CCombined = RKey K /\ answer (World c' []) (regs (l' ++ [B'])) CCombined = RKey K.
  Proof.
    intros SS NC NC' OK OK' TW PX PX' NU NU' F PM HT.
    assert (AE : agg_keys TH srt (A' :: l' ++ [B']) sort (tweak_of o) = agg_keys TH srt (A :: l ++ [B]) sort (tweak_of o)).
    { destruct sort; [symmetry; exact (proj1 (C65_order TH srt srt_perm SS _ _ (tweak_of o) F PM))|rewrite PM; reflexivity]. }
    destruct (C66_register d sort o rnd c A l B NC OK PX NU) as (_ & _ & R1). destruct (C66_register d' sort o' rnd' c' A' l' B' NC' OK' PX' NU') as (_ & _ & R2). rewrite TW, AE in R2.
    destruct (agg_keys TH srt (A :: l ++ [B]) sort (tweak_of o)) as [[a|]|]; [|rewrite R1 in HT; discriminate HT|rewrite R1 in HT; discriminate HT].
    destruct R1 as (_ & R1 & _), R2 as (R2' & R2 & _). split; [exact R2'|]. exists (a_fin a). auto.
  Qed.

  (** ** what goes wrong *)
  Lemma stuck_next c i z q : z_local z = None -> length (z_sigs z) = length (c_keys c) -> z_final z = None -> z_sigs (next c i z q) = z_sigs z /\ z_final (next c i z q) = None.
  Proof.
    intros L AL F. destruct q; cbn [next]; auto; (destruct (_ =? _)%nat; auto).
    - unfold reg_nonce. destruct (_ =? _); auto. destruct (_ =? _); auto. destruct (agg_nonces _); auto.
    - unfold sign_session. rewrite L. auto.
    - unfold combine_session. rewrite AL, Nat.eqb_refl. auto.
  Qed.
  Lemma stuck l : forall w i z, full (w_ctx w) = true -> nth_error (w_ses w) i = Some z -> z_local z = None -> length (z_sigs z) = length (c_keys (w_ctx w)) -> z_final z = None ->
    (forall s, answer w l (CCombine i s) = RErr EAllSigs) /\ answer w l (CFinal i) = RFinal None /\ forall m so f, answer w l (CSign i m so f) = RErr EReuse.
  Proof.
    induction l as [|q l IH]; intros w i z F Z L AL FN.
    - unfold MusigCtx.answer. cbn [MusigCtx.run MusigCtx.step]. split; [intro s; rewrite (at_res _ _ _ _ Z); unfold combine_session; rewrite AL, Nat.eqb_refl; reflexivity|]. split; [rewrite (at_res _ _ _ _ Z); cbn [snd]; rewrite FN; reflexivity|].
      intros m so f. rewrite (at_res _ _ _ _ Z). unfold sign_session. rewrite L. reflexivity.
    - unfold MusigCtx.answer in *. cbn [MusigCtx.run]. pose proof (step_frozen w q F) as FR. destruct (stuck_next (w_ctx w) i z q L AL FN) as [S1 S2]. destruct (local_gone (w_ctx w) i z q L) as (S3 & _). apply (IH (fst (step w q)) i (next (w_ctx w) i z q)).
      + rewrite (frozen_full _ _ FR). exact F.
      + apply step_nth, Z.
      + exact S3.
      + rewrite S1, AL. apply Permutation_length. destruct FR as (_ & _ & _ & _ & _ & _ & PM). exact PM.
      + exact S2.
  Qed.
  Lemma collect ss : forall c y i z, nth_error y i = Some z -> (length (z_sigs z) + length ss < length (c_keys c))%nat -> exists y', run (World c y) (map (CCombine i) ss) = World c y' /\ nth_error y' i = Some (Ses (z_local z) (z_pubs z) (z_cn z) (z_msg z) (z_our z) (z_sigs z ++ ss) (z_final z)).
  Proof.
    induction ss as [|s ss IH]; intros c y i z Z L.
    - exists y. split; [reflexivity|]. rewrite app_nil_r. destruct z. exact Z.
    - cbn [map MusigCtx.run MusigCtx.step length] in *. unfold at_ses. cbn [w_ses w_ctx]. rewrite Z. unfold combine_session. assert (X : (length (z_sigs z) =? length (c_keys c))%nat = false) by (apply Nat.eqb_neq; lia). assert (Y : (length (z_sigs z ++ [s]) =? length (c_keys c))%nat = false) by (rewrite app_length; cbn [length]; apply Nat.eqb_neq; lia).
      rewrite X, Y. cbn [fst snd]. set (z1 := Ses (z_local z) (z_pubs z) (z_cn z) (z_msg z) (z_our z) (z_sigs z ++ [s]) (z_final z)). assert (Z1 : nth_error (upd i z1 y) i = Some z1) by (apply nth_error_upd_same, nth_error_Some; rewrite Z; discriminate).
      destruct (IH c (upd i z1 y) i z1 Z1) as (y' & R & NE); [cbn [z1 z_sigs]; rewrite app_length; cbn [length]; lia|]. exists y'. split; [exact R|]. rewrite NE. unfold z1. cbn [z_local z_pubs z_cn z_msg z_our z_sigs z_final]. rewrite <- app_assoc. reflexivity.
  Qed.
  (** If the other n-1 partial signatures arrive before the own Sign, then Sign succeeds, but the final signature never
      appears: CombineSig refuses everything and the nonce is gone. *)
  Theorem C66_collect_first_refuted w i z ss m so f s R : full (w_ctx w) = true -> nth_error (w_ses w) i = Some z -> z_sigs z = [] -> z_final z = None -> (length ss + 1 = length (c_keys (w_ctx w)))%nat ->
    answer w (map (CCombine i) ss) (CSign i m so f) = RSig s R -> forall l, let w' := run w (map (CCombine i) ss ++ [CSign i m so f]) in
    (forall s', answer w' l (CCombine i s') = RErr EAllSigs) /\ answer w' l (CFinal i) = RFinal None /\ forall m' so' f', answer w' l (CSign i m' so' f') = RErr EReuse.
  Proof.
    intros F Z S0 FN LS HS l w'. unfold w'. clear w'. destruct w as [c y]. cbn [w_ctx w_ses] in *. destruct (collect ss c y i z Z) as (y' & R' & Z'); [rewrite S0; cbn [length]; lia|]. rewrite S0 in Z'. cbn [app] in Z'. unfold MusigCtx.answer in HS. rewrite R' in HS. rewrite run_snoc, R'. clear R'.
    pose proof (step_frozen (World c y') (CSign i m so f) F) as FR. pose proof (step_nth (World c y') (CSign i m so f) i _ Z') as N1. cbn [next] in N1. rewrite Nat.eqb_refl in N1. assert (HS' : snd (sign_session TH srt c (Ses (z_local z) (z_pubs z) (z_cn z) (z_msg z) (z_our z) ss (z_final z)) m so f) = RSig s R).
    { rewrite <- HS. cbn [MusigCtx.step]. symmetry. exact (at_res (World c y') i (fun c z => sign_session TH srt c z m so f) _ Z'). }
    eapply stuck; [rewrite (frozen_full _ _ FR); exact F|exact N1| | |]; cbn [w_ctx]; unfold sign_session in *; cbn [z_local z_cn z_sigs z_final z_pubs z_msg z_our] in *; (destruct (z_local z) as [n|]; [|discriminate HS']); (destruct (z_cn z) as [cn|]; [|discriminate HS']);
      destruct (psign TH srt (snd n) (c_d c) cn (c_keys c) so (c_tw c) m f) as [[[s1 R1]|]|]; try discriminate HS'; cbn [fst snd z_local z_sigs z_final]; [reflexivity| |exact FN].
    destruct FR as (_ & _ & _ & _ & _ & _ & PM). cbn [w_ctx] in PM. rewrite <- (Permutation_length PM), app_length. cbn [length]. exact LS.
  Qed.
  (** If all n come without an own Sign, the last one dereferences the missing own signature *)
  Theorem C66_all_without_sign_refuted w i z ss s : nth_error (w_ses w) i = Some z -> z_sigs z = [] -> z_our z = None -> (length ss + 1 = length (c_keys (w_ctx w)))%nat -> answer w (map (CCombine i) ss) (CCombine i s) = RPanic.
  Proof.
    intros Z S0 ON LS. destruct w as [c y]. cbn [w_ctx w_ses] in *. destruct (collect ss c y i z Z) as (y' & R' & Z'); [rewrite S0; cbn [length]; lia|]. rewrite S0 in Z'. cbn [app] in Z'. unfold MusigCtx.answer. rewrite R'. cbn [MusigCtx.step]. rewrite (at_res (World c y') i _ _ Z'). cbn [w_ctx]. unfold combine_session. cbn [z_sigs z_our].
    rewrite app_length. cbn [length]. rewrite LS, Nat.eqb_refl. assert (X : (length ss =? length (c_keys c))%nat = false) by (apply Nat.eqb_neq; lia). rewrite X, ON. reflexivity.
  Qed.
  (** One wrong partial signature makes the combination invalid; it cannot be replaced, and the session never finishes. *)
  Theorem C66_bad_share_refuted c0 cs i s : answer (World c0 []) cs (CCombine i s) = RErr EFinalInvalid -> let w' := run (World c0 []) (cs ++ [CCombine i s]) in
    forall l, (forall s', answer w' l (CCombine i s') = RErr EAllSigs) /\ answer w' l (CFinal i) = RFinal None /\ forall m so f, answer w' l (CSign i m so f) = RErr EReuse.
  Proof.
    intros H w' l. unfold w'. clear w'. rewrite run_snoc. unfold MusigCtx.answer in H. destruct (reach_inv c0 cs) as [IF IG]. generalize dependent (run (World c0 []) cs). intros w H IF IG.
    destruct (nth_error (w_ses w) i) as [z|] eqn:Z; [|cbn [MusigCtx.step] in H; rewrite (at_none _ _ _ Z) in H; discriminate H]. destruct (IG i z Z) as [GO GF].
    assert (F : full (w_ctx w) = true) by (apply IF; destruct (w_ses w); [destruct i; discriminate Z|discriminate]). pose proof (step_frozen w (CCombine i s) F) as FR. pose proof (step_nth w (CCombine i s) i z Z) as N1. cbn [next] in N1. rewrite Nat.eqb_refl in N1.
    assert (H' : snd (combine_session TH srt (w_ctx w) z s) = RErr EFinalInvalid) by (rewrite <- H; cbn [MusigCtx.step]; symmetry; exact (at_res w i (fun c z => combine_session TH srt c z s) z Z)). clear H.
    assert (K : exists c2 ss o, combine_session TH srt (w_ctx w) z s = (c2, Ses (z_local z) (z_pubs z) (z_cn z) (z_msg z) o ss (z_final z), RErr EFinalInvalid) /\ length ss = length (c_keys (w_ctx w)) /\ z_our z = o /\ o <> None /\ length (z_sigs z) <> length (c_keys (w_ctx w))).
    { unfold combine_session in *. destruct (Nat.eqb_spec (length (z_sigs z)) (length (c_keys (w_ctx w)))) as [E0|E0]; [discriminate H'|]. destruct (Nat.eqb_spec (length (z_sigs z ++ [s])) (length (c_keys (w_ctx w)))) as [E1|E1]; [|discriminate H']. destruct (z_our z) as [[s1 R]|]; [|discriminate H'].
      destruct (sig_opts TH srt (w_ctx w) (z_msg z)) as [o|]; [|discriminate H']. destruct (c_comb (w_ctx w)) as [a|]; [|discriminate H']. destruct (bverify _ _ _ _); [discriminate H'|]. eexists _, _, _. split; [reflexivity|]. split; [exact E1|]. split; [reflexivity|]. split; [discriminate|exact E0]. }
    destruct K as (c2 & ss & o & K & LS & OO & NO & NE). rewrite K in N1. cbn [fst snd] in N1. destruct o as [[s1 R]|]; [|contradiction NO; reflexivity]. destruct (GO s1 R OO) as [L _]. eapply stuck; [rewrite (frozen_full _ _ FR); exact F|exact N1|exact L| |].
    - cbn [z_sigs]. rewrite LS. destruct FR as (_ & _ & _ & _ & _ & _ & PM). apply Permutation_length, PM.
    - cbn [z_final]. destruct (z_final z) as [sg|]; [destruct (GF sg eq_refl) as [K2 _]; contradiction|reflexivity].
  Qed.
  (** With one signer no session can ever sign: the nonces are complete from the start, so they are never combined. *)
  Lemma step_num w q : c_num (w_ctx (fst (step w q))) = c_num (w_ctx w).
  Proof.
    assert (CK : forall c, c_num (fst (combine_keys TH srt c)) = c_num c) by (intro c; unfold combine_keys; destruct (existsb _ _); [destruct (agg_keys _ _ _ _ _) as [[a|]|]; reflexivity|reflexivity]).
    assert (AT : forall j f, (forall c z, frozen c (fst (fst (f c z)))) -> c_num (w_ctx (fst (at_ses w j f))) = c_num (w_ctx w)) by (intros j f K; destruct (at_frozen w j f K) as (_ & _ & _ & _ & X & _); exact X).
    destruct q; cbn [MusigCtx.step fst]; try reflexivity.
    - unfold register. destruct (full (w_ctx w)); [reflexivity|]. destruct (full _); [|reflexivity]. match goal with |- context [combine_keys TH srt ?x] => pose proof (CK x) as E; destruct (combine_keys TH srt x) as [c [r|]] end; exact E.
    - unfold new_session. destruct (negb _); [reflexivity|]. destruct (session_nonce _ _ _ _); reflexivity.
    - apply AT. intros. apply frozen_refl.
    - apply AT. intros. apply frozen_refl.
    - apply AT. intros c z. destruct (reg_nonce c z pn). apply frozen_refl.
    - apply AT. intros. apply sign_frozen.
    - apply AT. intros. apply combine_frozen.
    - apply AT. intros. apply frozen_refl.
  Qed.
  Theorem C66_single_signer_refuted c0 cs : c_num c0 = 1 -> forall i m so f, let r := answer (World c0 []) cs (CSign i m so f) in r = RErr ENoCombinedNonce \/ r = RPanic.
  Proof.
    intros N1 i m so f.
    assert (IV : c_num (w_ctx (run (World c0 []) cs)) = 1 /\ forall j z, nth_error (w_ses (run (World c0 []) cs)) j = Some z -> length (z_pubs z) = 1%nat /\ z_cn z = None /\ z_local z <> None).
    { induction cs as [|q cs [IN IH]] using rev_ind; [split; [exact N1|intros j z K; destruct j; discriminate K]|]. rewrite run_snoc. generalize dependent (run (World c0 []) cs). intros w IN IH. split; [rewrite step_num; exact IN|]. intros j z K.
      destruct (nth_step_old w q j z K) as [(y & Y)|(_ & _ & n & ->)]; [|split; [reflexivity|split; [reflexivity|discriminate]]]. destruct (IH j y Y) as (LP & CN & LO). pose proof (step_nth w q j y Y) as S. assert (z = next (w_ctx w) j y q) as -> by congruence.
      destruct q; cbn [next]; auto; (destruct (_ =? _)%nat; auto).
      - unfold reg_nonce. rewrite LP, IN. auto.
      - unfold sign_session. destruct (z_local y) as [n|] eqn:L; [|contradiction LO; reflexivity]. rewrite CN. cbn [fst snd]. rewrite L. auto.
      - unfold combine_session. destruct (_ =? _)%nat; auto. destruct (_ =? _)%nat; auto. destruct (z_our y) as [[s' R]|]; auto. destruct (sig_opts TH srt (w_ctx w) (z_msg y)) as [o|]; [destruct (c_comb (w_ctx w)) as [a|]; [destruct (bverify _ _ _ _)|]|]; auto. }
    destruct IV as [_ IV]. unfold MusigCtx.answer. cbn [MusigCtx.step]. destruct (nth_error (w_ses (run (World c0 []) cs)) i) as [z|] eqn:Z; [|rewrite (at_none _ _ _ Z); auto]. rewrite (at_res _ _ _ _ Z). destruct (IV i z Z) as (_ & CN & LO). left. unfold sign_session.
    destruct (z_local z); [|contradiction LO; reflexivity]. rewrite CN. reflexivity.
  Qed.
  (** A context for one signer by number never computes the combined key, so NewSession panics *)
  Theorem C66_one_signer_panics_refuted d sort o rnd c : new_ctx TH srt d sort o rnd = inl c -> o_keys o = None -> o_num o = 1 -> o_early o = false -> forall A r,
    let w := World c [] in answer w [] CCombined = RErr ENotEnoughSigners /\ answer w [] (CRegister A) = RErr EAllSigners /\ answer w [] (CNew None r) = RPanic.
  Proof.
    intros NC OK ON OE A r w. unfold new_ctx in NC. destruct (parse_xonly _) as [K|]; [|discriminate NC]. rewrite OK, ON, OE in NC. change (1 =? 0) with false in NC. change (1 <? 0) with false in NC. cbv beta iota zeta in NC. assert (CE : c = Ctx d K sort (tweak_of o) 1 [K] None None) by congruence. unfold w. subst c. split; [reflexivity|]. split; reflexivity.
  Qed.
  (** If the last registration fails because the key cannot be tweaked, the context counts as complete: nothing more can be
      registered, there is no combined key, and NewSession panics. *)
  Theorem C66_failed_registration_refuted d sort o rnd c A l B : new_ctx TH srt d sort o rnd = inl c -> o_keys o = None -> parse_xonly (xb (zm d G)) = Some A -> o_num o = Z.of_nat (length l) + 2 -> o_early o = false ->
    agg_keys TH srt (A :: l ++ [B]) sort (tweak_of o) = Ret None -> forall B' r, let w := run (World c []) (regs (l ++ [B])) in
    answer w [] CCombined = RErr ENotEnoughSigners /\ answer w [] (CRegister B') = RErr EAllSigners /\ answer w [] (CNew None r) = RPanic.
  Proof.
    intros NC OK PX NU OE AG B' r w. unfold new_ctx in NC. rewrite PX, OK, OE in NC. assert (X : (o_num o =? 0) = false) by lia. assert (Y : (o_num o <? 0) = false) by lia. rewrite X, Y in NC. assert (CE : c = Ctx d A sort (tweak_of o) (o_num o) [A] None None) by congruence. clear NC.
    assert (W : w = World (with_keys c (sorted srt sort (A :: l ++ [B])) None) []).
    { unfold w, regs. rewrite map_app. cbn [map]. rewrite run_snoc. change (map CRegister l) with (regs l). rewrite run_regs by (subst c; cbn [c_keys c_num length]; lia). cbn [MusigCtx.step w_ctx w_ses]. unfold register, full. subst c. cbn [with_keys c_keys c_num c_comb]. change (([A] ++ l) ++ [B]) with (A :: l ++ [B]). cbn [app length]. rewrite app_length. cbn [length].
      assert (X1 : (Z.of_nat (S (length l)) =? o_num o) = false) by lia. assert (Y1 : (Z.of_nat (S (length l + 1)) =? o_num o) = true) by lia. rewrite X1, Y1. rewrite combine_ok by (left; reflexivity). cbn [c_keys c_sort c_tw with_keys c_d c_pub c_num c_early c_comb]. rewrite AG. reflexivity. }
    rewrite W. assert (FU : full (with_keys c (sorted srt sort (A :: l ++ [B])) None) = true).
    { unfold full. subst c. cbn [with_keys c_keys c_num]. rewrite sorted_len. cbn [length]. rewrite app_length. cbn [length]. lia. }
    unfold MusigCtx.answer. cbn [MusigCtx.run MusigCtx.step w_ctx w_ses]. split; [reflexivity|]. split; [unfold register; rewrite FU; reflexivity|]. unfold new_session. cbn [w_ctx w_ses]. rewrite FU. cbn [negb]. unfold session_nonce. subst c. reflexivity.
  Qed.
  (** Nothing prevents the use of one pre-generated nonce in many sessions (see C65_nonce_reuse_reveals) *)
  Theorem C66_external_reuse_refuted w n i ext rnd : full (w_ctx w) = true -> c_early (w_ctx w) = None -> snd (step w (CNew (Some n) rnd)) = RSession i ->
    exists j, snd (step (fst (step w (CNew (Some n) rnd))) (CNew (Some n) ext)) = RSession j /\ j <> i /\ let w2 := fst (step (fst (step w (CNew (Some n) rnd))) (CNew (Some n) ext)) in answer w2 [] (CPublic i) = RPub (fst n) /\ answer w2 [] (CPublic j) = RPub (fst n).
  Proof.
    intros F EA H. assert (S1 : forall y r', full (w_ctx y) = true -> c_early (w_ctx y) = None -> step y (CNew (Some n) r') = (World (with_early (w_ctx y) None) (w_ses y ++ [Ses (Some n) [fst n] None (repeat (zb 0) 32) None [] None]), RSession (length (w_ses y)))).
    { intros y r' F' E'. cbn [MusigCtx.step]. unfold new_session. rewrite F'. cbn [negb]. unfold session_nonce. rewrite E'. reflexivity. }
    rewrite (S1 w rnd F EA) in *. cbn [fst snd] in *. rewrite S1 by (cbn [w_ctx]; assumption || reflexivity). assert (i = length (w_ses w)) as -> by congruence. cbn [fst snd w_ses w_ctx]. eexists. split; [reflexivity|]. split; [rewrite app_length; cbn [length]; lia|].
    cbv zeta. unfold MusigCtx.answer. cbn [MusigCtx.run MusigCtx.step]. split.
    - erewrite at_res; [|cbn [w_ses]; rewrite nth_error_app1 by (rewrite app_length; cbn [length]; lia); rewrite nth_error_app2, Nat.sub_diag by lia; reflexivity]. reflexivity.
    - erewrite at_res; [|cbn [w_ses]; rewrite nth_error_app2, Nat.sub_diag by lia; reflexivity]. reflexivity.
  Qed.

  (** ** the honest run *)
  Lemma agg_nonces_perm l l' cn : Permutation l l' -> agg_nonces l = Some cn -> agg_nonces l' = Some cn.
  Proof.
    intros PM H. apply C65_nonces in H. destruct H as (As & Bs & FA & FB & ->). apply C65_nonces. destruct (Permutation_Forall2 PM FA) as (As' & PA & FA'). destruct (Permutation_Forall2 PM FB) as (Bs' & PB & FB').
    exists As', Bs'. split; [exact FA'|]. split; [exact FB'|]. rewrite (psum_perm _ _ PA), (psum_perm _ _ PB). reflexivity.
  Qed.
  Lemma nonces_all ps : forall c z cn, c_num c = Z.of_nat (length (z_pubs z) + length ps) -> ps <> [] -> agg_nonces (z_pubs z ++ ps) = Some cn ->
    run (World c [z]) (map (CNonce 0) ps) = World c [Ses (z_local z) (z_pubs z ++ ps) (Some cn) (z_msg z) (z_our z) (z_sigs z) (z_final z)].
  Proof.
    induction ps as [|p ps IH]; intros c z cn NU NE AN; [contradiction NE; reflexivity|]. cbn [map MusigCtx.run MusigCtx.step length] in *. unfold at_ses. cbn [w_ses w_ctx nth_error]. unfold reg_nonce. assert (X : (Z.of_nat (length (z_pubs z)) =? c_num c) = false) by lia. rewrite X. rewrite app_length. cbn [length].
    destruct ps as [|p' ps].
    - assert (Y : (Z.of_nat (length (z_pubs z) + 1) =? c_num c) = true) by (cbn [length] in NU; lia). rewrite Y, AN. reflexivity.
    - assert (Y : (Z.of_nat (length (z_pubs z) + 1) =? c_num c) = false) by (cbn [length] in NU; lia). rewrite Y. cbn [fst upd]. rewrite (IH c _ cn); cbn [z_pubs z_local z_msg z_our z_sigs z_final]; [rewrite <- app_assoc; reflexivity| |discriminate|rewrite <- app_assoc; exact AN].
      rewrite app_length. cbn [length] in *. lia.
  Qed.
  Hypothesis srt_sorted : forall l, StronglySorted (fun A B : E => fst (aff A) <= fst (aff B)) (srt l).
  Lemma keys_agree sort keys ks tw : Forall (fun A => A <> ezero /\ odd_y A = false) keys -> (if sort : bool then Permutation keys ks else keys = ks) ->
    agg_keys TH srt ks sort tw = agg_keys TH srt keys sort tw /\ (forall sn d cn m fast, psign TH srt sn d cn (sorted srt sort ks) false tw m fast = psign TH srt sn d cn keys sort tw m fast) /\
    (forall m, combine_opt TH srt (sorted srt sort ks) sort tw m = combine_opt TH srt keys sort tw m).
  Proof.
    intros F PM. destruct sort; [|subst ks; cbn [sorted]; auto]. cbn [sorted].
    assert (A : agg_keys TH srt ks true tw = agg_keys TH srt keys true tw) by (symmetry; exact (proj1 (C65_order TH srt srt_perm srt_sorted keys ks tw F PM))).
    assert (A2 : agg_keys TH srt (srt ks) true tw = agg_keys TH srt keys true tw) by (symmetry; apply (C65_order TH srt srt_perm srt_sorted keys (srt ks) tw F); rewrite PM; apply srt_perm).
    split; [exact A|]. split; [|intro m; apply combine_opt_agg; exact A2].
    intros sn d cn m fast. rewrite psign_sorted. symmetry. exact (proj1 (proj2 (C65_order TH srt srt_perm srt_sorted keys ks tw F PM)) sn d cn m fast).
  Qed.
  (** Every signer of an honest group ends with a valid signature of the combined key: a context over the known signers (in any
      order if sorted), a session with the signer's nonce, the other public nonces in any order, Sign, the other partial
      signatures in any order. *)
  Theorem C66_honest (l : list (Z * bytes)) i d sn o sort ks rnd cn se m fast : (2 <= length l)%nat -> nth_error l i = Some (d, sn) ->
    Forall (fun p : Z * bytes => 0 < fst p < N /\ k_of (firstn 32 (snd p)) <> 0 /\ k_of (skipn 32 (snd p)) <> 0) l ->
    let keys := map (fun p => even (zm (fst p) G)) l in let nonces := map (fun p => pub_nonce (snd p)) l in
    o_keys o = Some ks -> o_num o = Z.of_nat (length ks) -> (if sort : bool then Permutation keys ks else keys = ks) ->
    agg_nonces nonces = Some cn -> session TH srt cn keys sort (tweak_of o) m = Ret (Some se) -> length m = 32%nat -> regular TH m se -> s_sum se <> ezero ->
    exists c ss s, new_ctx TH srt d sort o rnd = inl c /\ nth_error ss i = Some s /\ Forall2 (fun (p : Z * bytes) s => psign TH srt (snd p) (fst p) cn keys sort (tweak_of o) m fast = Ret (Some (s, s_r se))) l ss /\
      forall pns sigs, Permutation (pub_nonce sn :: pns) nonces -> Permutation (s :: sigs) ss ->
      let w := World c [] in let start := CNew (Some (pub_nonce sn, sn)) None :: map (CNonce 0) pns in
      answer w start (CSign 0 m false fast) = RSig s (s_r se) /\
      exists sg, answer w (start ++ CSign 0 m false fast :: map (CCombine 0) sigs) (CFinal 0) = RFinal (Some sg) /\ answer w [] CCombined = RKey (a_fin (s_agg se)) /\ bverify TH sg m (a_fin (s_agg se)) = true.
  Proof.
    intros L2 NI HF keys nonces OK ON PM AN SE LM RG NS.
    assert (FK : Forall (fun A => A <> ezero /\ odd_y A = false) keys).
    { unfold keys. rewrite Forall_map. rewrite Forall_forall in *. intros p I. destruct (HF p I) as (D & _). pose proof (kg_nz _ D) as NZ. split; [apply even_nz, NZ|apply even_odd, NZ]. }
    destruct (keys_agree sort keys ks (tweak_of o) FK PM) as (AE & PE & CE).
    destruct (session_inv TH srt _ _ _ _ _ _ SE) as (AG & _).
    assert (LK : length ks = length l) by (transitivity (length keys); [destruct sort; [symmetry; apply Permutation_length, PM|congruence]|apply map_length]).
    assert (DR : 0 < d < N) by (rewrite Forall_forall in HF; exact (proj1 (HF (d, sn) (nth_error_In _ _ NI)))). pose proof (kg_nz d DR) as DZ. set (A := even (zm d G)).
    assert (IA : In A ks).
    { assert (I : In A keys) by (unfold keys; apply in_map_iff; exists (d, sn); split; [reflexivity|exact (nth_error_In _ _ NI)]). destruct sort; [exact (Permutation_in _ PM I)|congruence]. }
    set (c := Ctx d A sort (tweak_of o) (o_num o) (sorted srt sort ks) (Some (s_agg se)) None).
    assert (NC : new_ctx TH srt d sort o rnd = inl c).
    { unfold new_ctx. rewrite (parse_xb (zm d G) DZ), OK. rewrite combine_ok by exact IA. cbn [c_keys c_sort c_tw]. rewrite AE, AG. reflexivity. }
    set (ov := if has_opts (tweak_of o) then Some (a_fin (s_agg se), a_acc (s_agg se), m) else None).
    assert (CO : combine_opt TH srt keys sort (tweak_of o) m = Ret (Some (a_fin (s_agg se), a_acc (s_agg se), m))) by (apply combine_opt_some, AG).
    assert (OV : combine_opt TH srt keys sort (tweak_of o) m = Ret ov \/ tweak_of o = Tweaks [] /\ ov = None).
    { unfold ov, has_opts. destruct (tweak_of o) as [[|t ts]|r|]; [right; auto|left; exact CO|left; exact CO|left; exact CO]. }
    destruct (C65_honest TH srt srt_perm srt_sorted l cn sort (tweak_of o) m se ov fast HF AN SE OV LM RG NS) as (ss & F2 & BV).
    assert (NS' : exists s, nth_error ss i = Some s /\ psign TH srt sn d cn keys sort (tweak_of o) m fast = Ret (Some (s, s_r se))).
    { clear - F2 NI. fold keys in F2. clearbody keys. revert i NI. induction F2 as [|p s l ss H _ IH]; intros [|i] NI; cbn [nth_error] in *; try discriminate NI; [|exact (IH i NI)]. exists s. assert (p = (d, sn)) as -> by congruence. auto. }
    destruct NS' as (s & SI & PS). exists c, ss, s. split; [exact NC|]. split; [exact SI|]. split; [exact F2|]. intros pns sigs PN PSG w start.
    assert (LP : S (length pns) = length l) by (rewrite <- (map_length (fun p => pub_nonce (snd p)) l); exact (Permutation_length PN)). assert (LS : S (length sigs) = length l) by (rewrite (F2_len _ _ _ F2); exact (Permutation_length PSG)).
    assert (FU : full c = true) by (unfold full, c; cbn [c_keys c_num]; rewrite sorted_len; lia).
    set (z1 := Ses (Some (pub_nonce sn, sn)) (pub_nonce sn :: pns) (Some cn) (repeat (zb 0) 32) None [] None).
    assert (ST : run w start = World c [z1]).
    { unfold start. cbn [MusigCtx.run MusigCtx.step]. unfold new_session. cbn [w w_ctx w_ses]. rewrite FU. cbn [negb]. change (session_nonce TH c (Some (pub_nonce sn, sn)) None) with (@inl (bytes * bytes) res (pub_nonce sn, sn)). cbn [fst snd app]. change (with_early c None) with c.
      rewrite (nonces_all pns c _ cn); cbn [z_pubs z_local z_msg z_our z_sigs z_final fst app]; [reflexivity|unfold c; cbn [c_num length]; lia|destruct pns; [cbn in LP; lia|discriminate]|]. apply (agg_nonces_perm nonces); [symmetry; exact PN|exact AN]. }
    assert (SG : sign_session TH srt c z1 m false fast = (c, Ses None (pub_nonce sn :: pns) (Some cn) m (Some (s, s_r se)) [s] None, RSig s (s_r se))).
    { assert (PS2 : psign TH srt (snd (pub_nonce sn, sn)) (c_d c) cn (c_keys c) false (c_tw c) m fast = Ret (Some (s, s_r se))) by (rewrite <- PS; exact (PE sn d cn m fast)).
      unfold sign_session. unfold z1 at 1 2 3 4 5 6 7. cbn [z_local z_cn z_pubs z_our z_sigs z_final app]. rewrite PS2. unfold z1. reflexivity. }
    assert (AS : step (World c [z1]) (CSign 0 m false fast) = (World c [Ses None (pub_nonce sn :: pns) (Some cn) m (Some (s, s_r se)) [s] None], RSig s (s_r se))).
    { cbn [MusigCtx.step]. unfold at_ses. cbn [w_ses w_ctx nth_error]. rewrite SG. reflexivity. }
    split; [unfold MusigCtx.answer; rewrite ST, AS; reflexivity|]. exists (combine TH (s_r se) (s :: sigs) ov). split; [|split; [reflexivity|rewrite (combine_perm TH (s_r se) (s :: sigs) ss ov PSG); exact BV]].
    destruct (exists_last (l := sigs)) as (sg1 & sl & ->); [intros ->; cbn in LS; lia|]. unfold MusigCtx.answer. rewrite run_app, ST. cbn [MusigCtx.run]. rewrite AS. cbn [fst]. rewrite map_app. cbn [map]. rewrite run_snoc. rewrite app_length in LS. cbn [length] in LS.
    assert (LCK : length (c_keys c) = length l) by (unfold c; cbn [c_keys]; rewrite sorted_len; exact LK).
    match goal with |- context [World c [?zz]] => destruct (collect sg1 c [zz] 0 zz eq_refl) as (y & RY & NY) end; [cbn [z_sigs length]; lia|]. rewrite RY. clear RY. cbn [z_local z_pubs z_cn z_msg z_our z_sigs z_final] in NY.
    set (z3 := Ses None (pub_nonce sn :: pns) (Some cn) m (Some (s, s_r se)) ([s] ++ sg1) None) in *.
    assert (CS : exists c', combine_session TH srt c z3 sl = (c', Ses None (pub_nonce sn :: pns) (Some cn) m (Some (s, s_r se)) (s :: sg1 ++ [sl]) (Some (combine TH (s_r se) (s :: sg1 ++ [sl]) ov)), RBool true)).
    { unfold combine_session. cbn [z3 z_local z_cn z_pubs z_our z_sigs z_final z_msg app length]. rewrite LCK. assert (X : (S (length sg1) =? length l)%nat = false) by (apply Nat.eqb_neq; lia). assert (Y : (S (length (sg1 ++ [sl])) =? length l)%nat = true) by (rewrite app_length; cbn [length]; apply Nat.eqb_eq; lia). rewrite X, Y.
      assert (SO : sig_opts TH srt c m = Ret ov).
      { unfold sig_opts, ov. unfold c at 1 2 3 4. cbn [c_tw c_keys c_sort]. destruct (has_opts (tweak_of o)); [|reflexivity]. rewrite CE. exact CO. }
      rewrite SO. change (c_comb c) with (Some (s_agg se)). cbv beta iota zeta. rewrite (combine_perm TH (s_r se) (s :: sg1 ++ [sl]) ss ov PSG), BV. rewrite <- (combine_perm TH (s_r se) (s :: sg1 ++ [sl]) ss ov PSG). eexists. reflexivity. }
    destruct CS as (c' & CS). pose proof (step_nth (World c y) (CCombine 0 sl) 0 z3 NY) as N1. cbn [next w_ctx] in N1. change (0 =? 0)%nat with true in N1. cbv iota in N1. rewrite CS in N1. cbn [fst snd] in N1. apply final_eq. eexists. split; [exact N1|reflexivity].
  Qed.
End C66.
(** the hypotheses of C66_honest are met: two signers, keys 1 and 3, the second signer's view *)
Theorem C66_example m : length m = 32%nat -> let TH := fun _ _ : bytes => be_fixed 32 1 in let sn := be_fixed 32 1 ++ be_fixed 32 1 in let keys := [even (zm 1 G); even (zm 3 G)] in
  exists c s s', new_ctx TH isort 3 false (COpts [] None false (Some keys) 2 false) None = inl c /\
    answer TH isort (World c []) [CNew (Some (pub_nonce sn, sn)) None; CNonce 0 (pub_nonce sn)] (CSign 0 m false false) = RSig s (s_r s') /\
    exists t sg A, answer TH isort (World c []) [CNew (Some (pub_nonce sn, sn)) None; CNonce 0 (pub_nonce sn); CSign 0 m false false; CCombine 0 t] (CFinal 0) = RFinal (Some sg) /\ answer TH isort (World c []) [] CCombined = RKey A /\ bverify TH sg m A = true.
Proof.
  intros LM TH sn keys. destruct C65_sort_exists as [SP SS]. destruct (C65_instance m) as (F & cn & se & AN & SE & RG & NS).
  destruct (C66_honest TH isort SP SS [(1, sn); (3, sn)] 1 3 sn (COpts [] None false (Some keys) 2 false) false keys None cn se m false (le_n 2) eq_refl F eq_refl eq_refl eq_refl AN SE LM RG NS) as (c & ss & s & NC & SI & F2 & H).
  pose proof (F2_len _ _ _ F2) as L. destruct ss as [|t [|s0 [|x ss]]]; cbn [length] in L; try discriminate L. cbn [nth_error] in SI. assert (s0 = s) as -> by congruence.
  destruct (H [pub_nonce sn] [t]) as (H1 & sg & H2 & H3 & H4); [apply Permutation_refl|apply perm_swap|]. exists c, s, se. split; [exact NC|]. split; [exact H1|]. exists t, sg, (a_fin (s_agg se)). split; [exact H2|]. split; [exact H3|exact H4].
Qed.
