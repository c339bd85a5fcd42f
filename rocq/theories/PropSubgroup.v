(** PropSubgroup.v -- C68: what acceptance of a public share says about the group it lies in.  Ed25519 has 8 n points and
    signatures live in the subgroup of order n; crypto.NewECPoint (used for PubXj and CommitedA) accepts all of them. *)
From Verif Require Import Base BigInt HashFrame Text Wire Messages PartyID Curve Schnorr Json Save Keygen KeygenNet KeygenHonest KeygenWorld KeygenAdv KeygenHist ToyCurve PropKeygen PropKeygenAdv PropKeygenCalls NumTh Paillier RangeProofs Onsign OnsignEnc SignExec FieldP EdGroup EdwardsP Pocklington Ed25519 PropEd25519.
Import Curve.
From Coq Require Import Znumtheory.

(** ** Specification *)
Section Spec.
  Variable C : curve.
  (** multiples of the base point *)
  Definition in_subgroup (P : point) : Prop := exists x, 0 <= x < c_n C /\ P = c_smul C (c_g C) x.
  (** a point of small order: 8 T is neutral *)
  Definition small_order (T : point) : Prop := c_canon C T /\ c_smul C T 8 = c_id C.
End Spec.

Section C68.
  Variable C : curve.
  Hypothesis L : curve_laws C.
  Notation n := (c_n C).
  Notation O := (c_id C).
  Notation "a +p b" := (c_add C a b) (at level 50, left associativity).
  Notation gm := (gmul C).
  Notation tors := (small_order C).

  Lemma np : 8 < n. Proof. apply (cl_n_range C L). Qed.
  Lemma gm_sub x : in_subgroup C (gm x).
  Proof. exists (x mod n). split; [apply Z.mod_pos_bound; pose proof np; lia|reflexivity]. Qed.
  Lemma sub_gm P : in_subgroup C P <-> exists x, P = gm x.
  Proof.
    split; [|intros [x ->]; apply gm_sub]. intros (x & R & ->). exists x. unfold gmul. rewrite Z.mod_small by lia. reflexivity.
  Qed.
  Lemma tors_on T : tors T -> on C T = true.
  Proof. intros [H _]. apply (cl_canon_on C L); exact H. Qed.
  Lemma tors_0 : tors O.
  Proof. split; [apply (cl_id_canon C L)|apply (smul_id C L); lia]. Qed.
  Lemma add_0_r P : c_canon C P -> P +p O = P.
  Proof. intro H. rewrite (cl_comm C L) by (first [apply on_id; exact L|apply (cl_canon_on C L); exact H]). apply (cl_id_l C L); exact H. Qed.
  Lemma smul_dist P Q k : on C P = true -> on C Q = true -> 0 <= k -> c_smul C (P +p Q) k = c_smul C P k +p c_smul C Q k.
  Proof.
    intros HP HQ Hk. revert k Hk. apply natlike_ind.
    - rewrite !(cl_smul_0 C L) by (auto; apply on_add; auto). rewrite (cl_id_l C L) by (apply (cl_id_canon C L)). reflexivity.
    - intros k Hk IH. unfold Z.succ. rewrite !(cl_smul_S C L) by (auto; apply on_add; auto). rewrite IH.
      pose proof (on_smul C L P k HP Hk) as OP. pose proof (on_smul C L Q k HQ Hk) as OQ.
      rewrite !(cl_assoc C L) by (auto; apply on_add; auto). f_equal.
      rewrite <- !(cl_assoc C L) by (auto; apply on_add; auto). f_equal. apply (cl_comm C L); auto.
  Qed.
  Lemma tors_add S T : tors S -> tors T -> tors (S +p T).
  Proof.
    intros HS HT. pose proof (tors_on _ HS). pose proof (tors_on _ HT). split; [apply (cl_add_canon C L); auto|].
    rewrite smul_dist by (auto; lia). destruct HS as [_ ->], HT as [_ ->]. apply (cl_id_l C L), (cl_id_canon C L).
  Qed.
  Lemma tors_smul T k : tors T -> 0 <= k -> tors (c_smul C T k).
  Proof.
    intros HT Hk. pose proof (tors_on _ HT) as OT. split; [apply canon_smul; auto|].
    rewrite <- (smul_mul C L) by (auto; lia). rewrite Z.mul_comm, (smul_mul C L) by (auto; lia).
    destruct HT as [_ ->]. apply smul_id; auto.
  Qed.
  (** the two parts meet only in the neutral element *)
  Lemma gm_tors x : tors (gm x) -> gm x = O.
  Proof.
    intros [_ H]. rewrite gmul_mul in H by (auto; lia). rewrite <- (gmul_0 C L) in H. apply (gmul_inj C L) in H.
    rewrite <- (gmul_0 C L). apply gmul_eqm. pose proof np as Hn. rewrite Z.mod_0_l in * by lia.
    apply Z.mod_divide in H; [|lia]. apply Z.mod_divide; [lia|]. apply prime_mult in H; [|apply (cl_prime C L)].
    destruct H as [H|H]; [apply Z.divide_pos_le in H; lia|exact H].
  Qed.
  Lemma shift x T y : tors T -> gm x +p T = gm y -> T = gm (y - x).
  Proof.
    intros HT E. apply (add_cancel_l C L (gm x)); [apply gmul_on; exact L|apply HT|apply gmul_canon; exact L|].
    rewrite E, gmul_add by exact L. f_equal. lia.
  Qed.
  (** a base multiple moved by a small-order point stays in the subgroup only when the point is neutral *)
  Theorem C68_not_in_subgroup x T : tors T -> (in_subgroup C (gm x +p T) <-> T = O).
  Proof.
    intro HT. split.
    - intros H. apply sub_gm in H. destruct H as [y E]. apply shift in E; [|exact HT]. rewrite E. apply gm_tors. rewrite <- E. exact HT.
    - intros ->. rewrite add_0_r by (apply gmul_canon; exact L). apply gm_sub.
  Qed.
  (** every curve point that is a base multiple up to the cofactor (what C25 extracts from a prover) is of this form *)
  Theorem C68_shape X x : c_canon C X -> c_smul C X 8 = gm (8 * x) -> exists T, small_order C T /\ X = gm x +p T.
  Proof.
    intros CX E. pose proof (cl_canon_on C L _ CX) as OX.
    destruct (cl_inv C L (gm x) (gmul_on C L x)) as (I & CI & EI). pose proof (cl_canon_on C L _ CI) as OI.
    exists (I +p X). assert (OG : on C (gm x) = true) by (apply gmul_on; exact L).
    assert (R : gm x +p (I +p X) = X).
    { rewrite <- (cl_assoc C L), EI by auto. apply (cl_id_l C L); exact CX. }
    split; [|symmetry; exact R]. split; [apply (cl_add_canon C L); auto|].
    assert (O2 : on C (I +p X) = true) by (apply on_add; auto).
    apply (add_cancel_l C L (c_smul C (gm x) 8)); [apply on_smul; auto; lia|apply canon_smul; auto; lia|apply (cl_id_canon C L)|].
    rewrite <- smul_dist by (auto; lia). rewrite R, E, gmul_mul by (auto; lia). symmetry. apply add_0_r, gmul_canon; exact L.
  Qed.

  (** Exactly which answers keygen round 4 accepts for a share x G + T with nonce commitment a G + T': the response must be
      the honest one AND the small-order parts must cancel under the challenge. *)
  Theorem C68_accept_iff a T' x T c z : small_order C T -> small_order C T' ->
    (sch_verify C (gm a +p T') (gm x +p T) c z = Ret true <->
     z mod n = (a + c * x) mod n /\ T' +p c_smul C T (c mod n) = O).
  Proof.
    intros HT HT'. pose proof np as Hn. assert (Rc : 0 <= c mod n < n) by (apply Z.mod_pos_bound; lia).
    pose proof (tors_on _ HT) as OT. pose proof (tors_on _ HT') as OT'.
    assert (OG : forall y, on C (gm y) = true) by (intro; apply gmul_on; exact L).
    rewrite sch_verify_eq by (auto; apply on_add; auto). rewrite smul_dist by (auto; lia).
    set (V := c_smul C T (c mod n)). assert (HV : tors V) by (apply tors_smul; auto; lia). pose proof (tors_on _ HV) as OV.
    rewrite gmul_mul by (auto; lia).
    assert (E : (gm a +p T') +p (gm (c mod n * x) +p V) = gm (a + c * x) +p (T' +p V)).
    { rewrite (gmul_eqm C (a + c * x) (a + c mod n * x)).
      2:{ rewrite <- Z.add_mod_idemp_r, <- (Z.mul_mod_idemp_l c x), Z.add_mod_idemp_r by lia. reflexivity. }
      rewrite <- gmul_add by exact L. rewrite !(cl_assoc C L) by (auto; apply on_add; auto). f_equal.
      rewrite <- !(cl_assoc C L) by (auto; apply on_add; auto). f_equal. apply (cl_comm C L); auto. }
    rewrite E. clear E. pose proof (tors_add _ _ HT' HV) as HW. set (W := T' +p V) in *.
    split.
    - intro H. assert (B : pt_eqb (gm (a + c * x) +p W) (gm z) = true) by congruence. apply pt_eqb_eq in B.
      assert (W0 : W = O) by (apply (C68_not_in_subgroup (a + c * x)); [exact HW|rewrite B; apply gm_sub]).
      split; [|exact W0]. rewrite W0, add_0_r in B by (apply gmul_canon; exact L). symmetry. apply (gmul_inj C L). exact B.
    - intros [Ez W0]. f_equal. apply pt_eqb_eq. rewrite W0, add_0_r by (apply gmul_canon; exact L). apply gmul_eqm. congruence.
  Qed.

  (** What holds: a share in the prime-order subgroup accompanied by a nonce commitment in it is accepted exactly with the
      honest response; and a party's own share and commitment always are in it. *)
  Theorem C68_own_share_partial H r p res p' : kg_r1_exec C H r p = Ret (res, p') ->
    exists X A, nth_error (sv_pub (kp_save p')) (kp_i p) = Some (Some X) /\ kp_A p' = Some A /\ in_subgroup C X /\ in_subgroup C A.
  Proof.
    unfold kg_r1_exec. set (x := match sv_priv (kp_save p) with Some x => x | None => kr_x r end).
    rewrite !base_mul_eq by exact L. intro E.
    destruct (store (sv_pub (kp_save p)) (Z.of_nat (kp_i p)) (Some (gm x))) as [pub|] eqn:S1; cbn [obind] in E; [|discriminate].
    destruct (idx (keys (kp_ids p)) (Z.of_nat (kp_i p))) as [share|] eqn:S2; cbn [obind] in E; [|discriminate].
    match type of E with (let! r1 := ?t in _) = _ => destruct t as [r1|] eqn:S3 end; cbn [obind] in E; [|discriminate].
    match type of E with Ret (_, ?q) = _ => assert (EP : q = p') by congruence end. rewrite <- EP. cbn [kp_save sv_pub kp_A].
    exists (gm x), (gm (kr_tau r)). split; [|split; [reflexivity|split; apply gm_sub]].
    unfold store in S1. destruct ((0 <=? Z.of_nat (kp_i p)) && (Z.of_nat (kp_i p) <? Z.of_nat (length (sv_pub (kp_save p))))) eqn:B; [|discriminate].
    apply andb_prop in B. destruct B as [_ B]. apply Z.ltb_lt in B.
    assert (EQ : pub = upd (Z.to_nat (Z.of_nat (kp_i p))) (Some (gm x)) (sv_pub (kp_save p))) by congruence. rewrite EQ, Nat2Z.id.
    apply nth_error_upd_same. lia.
  Qed.

  (** The nonce points of signing are cleared by EightInvEight: whatever point a peer sends, the one added to R is neutral
      after multiplication by n. *)
  Theorem C68_nonce_cleared_partial inv8 P R : on C P = true -> eight_inv_eight C inv8 P = Ret R -> c_canon C R /\ c_smul C R n = O.
  Proof. apply eight_inv_eight_subgroup. exact L. Qed.

  (** The claim is false for shares: with T of order 2, the share x G + T is accepted with an honest nonce commitment
      whenever the challenge is even, and with nonce commitment a G + T whenever it is odd -- so each of the two
      commitments a peer can make is accepted for half of the challenges.  The share is in the subgroup in neither case. *)
  Theorem C68_share_refuted T : c_canon C T -> T <> O -> c_smul C T 2 = O -> forall x a c,
    ~ in_subgroup C (gm x +p T) /\ on C (gm x +p T) = true /\
    sch_verify C (if Z.even (c mod n) then gm a else gm a +p T) (gm x +p T) c (sch_prove n a c x) = Ret true.
  Proof.
    intros CT NT T2 x a c. assert (OT : on C T = true) by (apply (cl_canon_on C L); exact CT).
    assert (HT : tors T).
    { split; [exact CT|]. replace 8 with (4 * 2) by lia. rewrite (smul_mul C L) by (auto; lia). rewrite T2. apply smul_id; auto; lia. }
    assert (Even : forall k, 0 <= k -> c_smul C T (k * 2) = O).
    { intros k Hk. rewrite (smul_mul C L) by (auto; lia). rewrite T2. apply smul_id; auto. }
    pose proof np as Hn. assert (Rc : 0 <= c mod n < n) by (apply Z.mod_pos_bound; lia).
    assert (ER : sch_prove n a c x mod n = (a + c * x) mod n) by (unfold sch_prove; rewrite Z.mod_mod by lia; reflexivity).
    split; [rewrite C68_not_in_subgroup by exact HT; exact NT|]. split; [apply on_add; auto; apply gmul_on; exact L|].
    destruct (Z.even (c mod n)) eqn:P.
    - rewrite <- (add_0_r (gm a)) by (apply gmul_canon; exact L). apply C68_accept_iff; [exact HT|apply tors_0|].
      split; [exact ER|]. apply Zeven_bool_iff, Zeven_ex_iff in P. destruct P as [k EK]. rewrite EK in Rc |- *. rewrite Z.mul_comm, Even by lia.
      apply (cl_id_l C L), (cl_id_canon C L).
    - apply C68_accept_iff; [exact HT|exact HT|]. split; [exact ER|].
      assert (P' : Z.odd (c mod n) = true) by (rewrite <- Z.negb_even, P; reflexivity).
      apply Zodd_bool_iff, Zodd_ex_iff in P'. destruct P' as [k EK]. rewrite EK in Rc |- *. replace (2 * k + 1) with (k * 2 + 1) by lia.
      rewrite (cl_smul_S C L), Even by (auto; lia). rewrite add_0_r by exact CT.
      replace (T +p T) with (c_smul C T 2); [exact T2|]. replace 2 with (0 + 1 + 1) by lia. rewrite !(cl_smul_S C L), (cl_smul_0 C L) by (auto; lia).
      rewrite add_0_r by exact CT. reflexivity.
  Qed.

  (** The group key is the sum of the accepted shares, so it lies in the subgroup exactly when the small-order parts the
      parties smuggled in add up to the neutral element. *)
  Theorem C68_group_key (xs : list (Z * point)) : Forall (fun xt => small_order C (snd xt)) xs ->
    let share xt := gm (fst xt) +p snd xt in
    let key := fold_right (fun xt s => share xt +p s) O xs in
    let T := fold_right (fun xt s => snd xt +p s) O xs in
    key = gm (fold_right (fun xt s => fst xt + s) 0 xs) +p T /\ (in_subgroup C key <-> T = O).
  Proof.
    intros F share key T. assert (HT : tors T).
    { unfold T. clear key T. induction F; cbn [fold_right]; [apply tors_0|apply tors_add; assumption]. }
    assert (K : key = gm (fold_right (fun xt s => fst xt + s) 0 xs) +p T).
    { unfold key, T, share. clear key T HT share. induction F as [|[x t] l Ht F IH]; cbn [fold_right fst snd].
      - rewrite gmul_0 by exact L. symmetry. apply (cl_id_l C L), (cl_id_canon C L).
      - rewrite IH. clear IH. cbn [snd] in Ht. pose proof (tors_on _ Ht) as Ot. rewrite <- gmul_add by exact L.
        set (S := fold_right (fun xt s => snd xt +p s) O l). assert (HS : tors S).
        { unfold S. clear S. induction F; cbn [fold_right]; [apply tors_0|apply tors_add; assumption]. }
        pose proof (tors_on _ HS) as OS. set (y := fold_right _ 0 l).
        assert (OG : forall y, on C (gm y) = true) by (intro; apply gmul_on; exact L).
        rewrite !(cl_assoc C L) by (auto; apply on_add; auto). f_equal.
        rewrite <- !(cl_assoc C L) by (auto; apply on_add; auto). f_equal. apply (cl_comm C L); auto. }
    split; [exact K|]. rewrite K. apply C68_not_in_subgroup. exact HT.
  Qed.
End C68.

(** ** What such a key does to signing *)
Section Sign.
  Variable C : curve.
  Variable D : edlib.
  Variable S5 : bytes -> bytes.     (* SHA-512 *)
  Hypothesis L : curve_laws C.
  Hypothesis LD : ed_laws C D.
  Notation n := (c_n C).
  Notation "a +p b" := (c_add C a b) (at level 50, left associativity).
  Notation gm := (gmul C).
  Notation tors := (small_order C).

  Lemma neg_gm_tors y T : tors T -> exists U, tors U /\ ed_neg D (gm y +p T) = gm (- y) +p U /\ T +p U = c_id C.
  Proof.
    intro HT. pose proof (tors_on C L _ HT) as OT. destruct (cl_inv C L T OT) as (U & CU & EU). pose proof (cl_canon_on C L _ CU) as OU.
    assert (HU : tors U).
    { split; [exact CU|]. apply (add_cancel_l C L (c_smul C T 8)); [apply on_smul; auto; lia|apply canon_smul; auto; lia|apply (cl_id_canon C L)|].
      rewrite <- (smul_dist C L) by (auto; lia). rewrite EU, (smul_id C L) by lia. destruct HT as [_ ->]. symmetry. apply (cl_id_l C L), (cl_id_canon C L). }
    exists U. split; [exact HU|]. split; [|exact EU].
    assert (OG : forall y, on C (gm y) = true) by (intro; apply gmul_on; exact L).
    assert (CP : c_canon C (gm y +p T)) by (apply (cl_add_canon C L); auto). pose proof (cl_canon_on C L _ CP) as OP.
    apply (add_cancel_l C L (gm y +p T)); [exact OP|apply (el_neg_canon C D LD); exact CP|apply (cl_add_canon C L); auto|].
    rewrite (el_neg C D LD) by exact CP. symmetry.
    rewrite (cl_assoc C L) by (auto; apply on_add; auto). rewrite <- (cl_assoc C L T) by (auto; apply on_add; auto).
    rewrite (cl_comm C L T (gm (- y))) by auto. rewrite (cl_assoc C L) by (auto; apply on_add; auto). rewrite EU.
    rewrite (add_0_r C L) by (apply gmul_canon; exact L). rewrite gmul_add by exact L. rewrite Z.add_opp_diag_r. apply gmul_0; exact L.
  Qed.

  (** Under the key y G + T, the signature all-honest signers produce on a message (R = r G, s = r + h y) verifies exactly
      when the hash annihilates T. *)
  Theorem C68_signature_iff y T r M : small_order C T ->
    let A := gm y +p T in let R := gm r in
    let h := of_le (S5 (ge_bytes R ++ point_enc D A ++ M)) mod n in
    ed_verify C D S5 A M (of_le (ge_bytes R)) ((h * y + r) mod n) = true <-> c_smul C T h = c_id C.
  Proof.
    intros HT A R h. pose proof (tors_on C L _ HT) as OT. pose proof (cl_n_range C L) as RN. pose proof b253 as B6.
    assert (OG : forall y, on C (gm y) = true) by (intro; apply gmul_on; exact L).
    set (s := (h * y + r) mod n). assert (RS : 0 <= s < n) by (apply Z.mod_pos_bound; lia).
    assert (Rh : 0 <= h < n) by (apply Z.mod_pos_bound; lia).
    assert (CA : c_canon C A) by (apply (cl_add_canon C L); auto).
    unfold ed_verify. assert (Es : big_enc s = le_fixed 32 s) by (apply big_enc_small; lia). rewrite Es.
    assert (Eo : of_le (le_fixed 32 s) = s) by (apply of_le_le_fixed_small; rewrite pow256_32; lia).
    rewrite top_bits_conv by (first [apply le_fixed_length|rewrite Eo; lia]). cbn [Z.eqb negb].
    destruct (el_coord C D LD _ CA) as [Hx Hy].
    assert (Ep : point_enc D A = ge_bytes A) by (apply point_enc_canon; [apply (el_p C D LD)|exact Hx|exact Hy]).
    assert (Ed : ed_dec D (point_enc D A) = Some A) by (rewrite Ep; apply (el_dec C D LD); exact CA). rewrite Ed.
    assert (Er : big_enc (of_le (ge_bytes R)) = ge_bytes R) by (rewrite <- enc_to_big_le; apply C34_bytes_roundtrip, ge_bytes_len). rewrite Er.
    fold h. rewrite Eo. destruct (neg_gm_tors y T HT) as (U & HU & EN & EU). fold A in EN. rewrite EN.
    pose proof (tors_on C L _ HU) as OU.
    rewrite (smul_dist C L) by (auto; lia). rewrite gmul_mul by (auto; lia). rewrite <- (gmul_smul C L s) by lia.
    set (V := c_smul C U h). assert (HV : tors V) by (apply (tors_smul C L); auto; lia). pose proof (tors_on C L _ HV) as OV.
    assert (E : (gm (h * - y) +p V) +p gm s = R +p V).
    { rewrite (cl_assoc C L), (cl_comm C L V) by auto. rewrite <- (cl_assoc C L) by auto. rewrite gmul_add by exact L. f_equal.
      apply gmul_eqm. unfold s. rewrite Zplus_mod_idemp_r. f_equal. ring. }
    rewrite E. clear E.
    assert (TV : c_smul C T h +p V = c_id C).
    { unfold V. rewrite <- (smul_dist C L) by (auto; lia). rewrite EU. apply smul_id; auto; lia. }
    assert (OTh : on C (c_smul C T h) = true) by (apply on_smul; auto; lia).
    rewrite bytes_eqb_eq. split.
    - intro H. assert (RV : R +p V = R).
      { apply (f_equal (ed_dec D)) in H. rewrite !(el_dec C D LD) in H by (first [apply gmul_canon; exact L|apply (cl_add_canon C L); auto; apply OG]). congruence. }
      assert (V0 : V = c_id C).
      { apply (add_cancel_l C L R); [apply OG|apply HV|apply (cl_id_canon C L)|]. rewrite RV. symmetry. apply (add_0_r C L), gmul_canon; exact L. }
      rewrite V0, (add_0_r C L) in TV by (apply canon_smul; auto; lia). exact TV.
    - intro T0. rewrite T0, (cl_id_l C L) in TV by apply HV. rewrite TV, (add_0_r C L) by (apply gmul_canon; exact L). reflexivity.
  Qed.

  (** With T of order 2 that is every message whose hash is odd: the signers are all honest, Final fails (naming nobody). *)
  Theorem C68_signing_refuted y T r M : c_canon C T -> T <> c_id C -> c_smul C T 2 = c_id C ->
    let A := gm y +p T in let R := gm r in
    let h := of_le (S5 (ge_bytes R ++ point_enc D A ++ M)) mod n in
    ed_verify C D S5 A M (of_le (ge_bytes R)) ((h * y + r) mod n) = Z.even h.
  Proof.
    intros CT NT T2 A R h. assert (OT : on C T = true) by (apply (cl_canon_on C L); exact CT).
    assert (HT : tors T).
    { split; [exact CT|]. replace 8 with (4 * 2) by lia. rewrite (smul_mul C L) by (auto; lia). rewrite T2. apply smul_id; auto; lia. }
    assert (Even : forall k, 0 <= k -> c_smul C T (k * 2) = c_id C).
    { intros k Hk. rewrite (smul_mul C L) by (auto; lia). rewrite T2. apply smul_id; auto. }
    pose proof (C68_signature_iff y T r M HT) as I. cbv zeta in I. fold A R in I. fold h in I.
    assert (Rh : 0 <= h < n) by (apply Z.mod_pos_bound; pose proof (cl_n_range C L); lia).
    destruct (Z.even h) eqn:P.
    - apply I. apply Zeven_bool_iff, Zeven_ex_iff in P. destruct P as [k EK]. rewrite EK in Rh |- *. rewrite Z.mul_comm. apply Even. lia.
    - apply not_true_iff_false. rewrite I. intro X. apply NT.
      assert (P' : Z.odd h = true) by (rewrite <- Z.negb_even, P; reflexivity).
      apply Zodd_bool_iff, Zodd_ex_iff in P'. destruct P' as [k E]. rewrite E in X, Rh. replace (2 * k + 1) with (k * 2 + 1) in X by lia.
      rewrite (cl_smul_S C L), Even in X by (auto; lia). rewrite (add_0_r C L) in X by exact CT. exact X.
  Qed.
End Sign.

(** ** The point (0, -1) of the real curve has order 2 *)
Definition ed_T2 : point := (0, 2 ^ 255 - 20).
Lemma ed_T2_order : c_canon ed25519 ed_T2 /\ ed_T2 <> c_id ed25519 /\ c_smul ed25519 ed_T2 2 = c_id ed25519.
Proof.
  split; [apply canon_ed; unfold on_ed25519, ed_T2, px, py; cbn [fst snd]; vm_compute; repeat split; congruence|].
  split; [intro E; apply (f_equal py) in E; vm_compute in E; discriminate|vm_compute; reflexivity].
Qed.
Theorem C68_on_ed25519_refuted x a c :
  let X := c_add ed25519 (gmul ed25519 x) ed_T2 in
  ~ in_subgroup ed25519 X /\ on ed25519 X = true /\
  sch_verify ed25519 (if Z.even (c mod c_n ed25519) then gmul ed25519 a else c_add ed25519 (gmul ed25519 a) ed_T2) X c (sch_prove (c_n ed25519) a c x) = Ret true.
Proof. destruct ed_T2_order as (A & B & D). apply (C68_share_refuted ed25519 C52_curve_laws ed_T2 A B D). Qed.

Theorem C68_signing_on_ed25519_refuted S5 y r M :
  let A := c_add ed25519 (gmul ed25519 y) ed_T2 in let R := gmul ed25519 r in
  let h := of_le (S5 (ge_bytes R ++ point_enc ed25519lib A ++ M)) mod c_n ed25519 in
  ed_verify ed25519 ed25519lib S5 A M (of_le (ge_bytes R)) ((h * y + r) mod c_n ed25519) = Z.even h.
Proof. destruct ed_T2_order as (A & B & D). apply (C68_signing_refuted ed25519 ed25519lib S5 C52_curve_laws C52_encoding_laws y ed_T2 r M A B D). Qed.

(** ** A complete key generation whose output key is outside the subgroup *)
(** party 1 plays the protocol with the share 7 G + T, T = (44, 1) of order 2 *)
Definition bad_X : point := c_add toy (gmul toy 7) (44, 1).
Definition bad_A (a : Z) : point := gmul toy a.
Definition bad_srid : bytes := kr_srid (ex_rnd 1).
Definition bad_m1 (a : Z) : bytes := wire_bytes (CKg1 (commit toy_hash kg_ssid 1 bad_srid bad_X (bad_A a) [])).
Definition bad_m2 (a : Z) : bytes := wire_bytes (CKg2 {| k2_ssid := kg_ssid; k2_pi := 0; k2_srid := bad_srid;
  k2_xx := to_be (px bad_X); k2_xy := to_be (py bad_X); k2_ax := to_be (px (bad_A a)); k2_ay := to_be (py (bad_A a));
  k2_u := []; k2_pn := []; k2_ps := []; k2_pt := [] |}).
Definition bad_c (a : Z) : Z := match kg_challenge toy toy_hash kg_ssid (xor (kr_srid (ex_rnd 0)) bad_srid) 1 bad_X (bad_A a) with Ret c => c | Panic => 0 end.
Definition bad_m3 (a : Z) : bytes := wire_bytes (CKg3 (to_be (sch_prove 11 a (bad_c a) 7)) [] []).
Definition bad_ops (a : Z) : list kop := [KR1 (ex_rnd 0); KAcc 1 1 (b64_enc (bad_m1 a)); KR2; KAcc 2 1 (b64_enc (bad_m2 a)); KR3; KAcc 3 1 (b64_enc (bad_m3 a))].
Definition bad_test (ops : list kop) : bool :=
  match run_ops toy toy_hash ops tp0 with
  | Some (l, p) => forallb (fun x => r_ok (snd x)) l &&
      match kop_run toy toy_hash KR4 p with
      | Ret (r, q) => r_ok r && match save_dec toy (r_data r) with
                                | Some s => match sv_ed s with Some P => negb (px (c_smul toy P 11) =? 0) | None => false end
                                | None => false end
      | Panic => false end
  | None => false end.
Lemma bad_test_spec ops : bad_test ops = true -> exists l p r q s P,
    k_hist toy toy_hash tp0 l p /\ (forall o x, In (o, x) l -> r_ok x = true) /\
    kop_run toy toy_hash KR4 p = Ret (r, q) /\ r_ok r = true /\ save_dec toy (r_data r) = Some s /\ sv_ed s = Some P /\ ~ in_subgroup toy P.
Proof.
  unfold bad_test. intro T. destruct (run_ops toy toy_hash ops tp0) as [[l p]|] eqn:D; [|discriminate].
  rewrite andb_true_iff in T. destruct T as [T1 T].
  destruct (kop_run toy toy_hash KR4 p) as [[r q]|] eqn:E; [|discriminate]. rewrite andb_true_iff in T. destruct T as [T2 T].
  destruct (save_dec toy (r_data r)) as [s|] eqn:S; [|discriminate]. destruct (sv_ed s) as [P|] eqn:EP; [|discriminate].
  exists l, p, r, q, s, P. split; [eapply run_ops_hist; exact D|]. split.
  { intros o x Hin. rewrite forallb_forall in T1. exact (T1 _ Hin). }
  repeat (split; [assumption || reflexivity|]). intros (x & R & EX).
  apply negb_true_iff, Z.eqb_neq in T. apply T. rewrite EX. unfold c_smul, c_g, toy, px. cbn [fst].
  rewrite Z.mul_mod_idemp_r by lia. replace (11 * (x * 8)) with (x * 88) by lia. apply Z_mod_mult.
Qed.
Lemma bad_test_ok : bad_test (bad_ops 1) = true. Proof. vm_cast_no_check (eq_refl true). Qed.
(** every call of the honest party succeeds, and the key it returns is not a multiple of the base point *)
Theorem C68_group_key_refuted : exists l p r q s P,
  k_hist toy toy_hash tp0 l p /\ (forall o x, In (o, x) l -> r_ok x = true) /\
  kop_run toy toy_hash KR4 p = Ret (r, q) /\ r_ok r = true /\ save_dec toy (r_data r) = Some s /\ sv_ed s = Some P /\ ~ in_subgroup toy P.
Proof. exact (bad_test_spec _ bad_test_ok). Qed.

Theorem C68_example : small_order toy (44, 1) /\ c_smul toy (44, 1) 2 = c_id toy /\ (44, 1) <> c_id toy /\
  small_order toy (11, 1) /\ c_smul toy (11, 1) 4 <> c_id toy /\
  sch_verify toy (c_add toy (gmul toy 3) (66, 1)) (c_add toy (gmul toy 7) (11, 1)) 2 (sch_prove 11 3 2 7) = Ret true /\
  sch_verify toy (c_add toy (gmul toy 3) (66, 1)) (c_add toy (gmul toy 7) (11, 1)) 3 (sch_prove 11 3 3 7) = Ret false /\
  in_subgroup toy (gmul toy 7) /\ ~ in_subgroup toy (c_add toy (gmul toy 7) (11, 1)).
Proof.
  repeat (split; [first [reflexivity|discriminate|split; [cbn; lia|reflexivity]]|]).
  split; [apply (gm_sub toy toy_laws)|]. intro H. apply (C68_not_in_subgroup toy toy_laws) in H; [discriminate|split; [cbn; lia|reflexivity]].
Qed.
