(** Schnorr.v -- crypto/schnorr/schnorr_proof.go *)
From Verif Require Import Base BigInt HashFrame Curve.
From Coq Require Import Znumtheory.

Section Model.
  Variable C : curve.
  Variable H : bytes -> bytes.      (* crypto.SHA512_256 *)
  Notation n := (c_n C).

  (** common/hash_utils.go 15-18 RejectionSample: e mod q (a nil hash would panic) *)
  Definition reject_sample (q : Z) (h : option Z) : outcome Z :=
    match h with Some e => Ret (e mod q) | None => Panic end.

  (** schnorr_proof.go 140-143 Prove: (committedSecret + challenge*secret) mod q *)
  Definition sch_prove (q tau c x : Z) : Z := (tau + c * x) mod q.

  (** schnorr_proof.go 145-154 Proof.Verify *)
  Definition sch_verify (A X : point) (c z : Z) : outcome bool :=
    match pt_smul C X c with
    | None => Panic
    | Some Xc => match pt_add C A Xc with
                 | None => Ret false
                 | Some s => match base_mul C z with None => Panic | Some t => Ret (pt_eqb s t) end
                 end
    end.

  (** schnorr_proof.go 47-49 and 70-72: Fiat-Shamir challenge of ZKProof *)
  Definition zk_challenge (session : bytes) (X alpha : point) : outcome Z :=
    reject_sample n (sha_tagged H session
      (map Some [px X; py X; px (c_g C); py (c_g C); px alpha; py alpha])).

  (** schnorr_proof.go 34-55 NewZKProof with the random a given; X valid on the curve *)
  Definition zk_new (session : bytes) (x : Z) (X : point) (a : Z) : outcome (option (point * Z)) :=
    if on C X then
      match base_mul C a with
      | None => Panic
      | Some alpha => let! c := zk_challenge session X alpha in Ret (Some (alpha, (a + c * x) mod n))
      end
    else Ret None.

  (** schnorr_proof.go 58-82 ZKProof.Verify (X non-nil) *)
  Definition zk_verify (session : bytes) (X : point) (pf : point * Z) : outcome bool :=
    let! c := zk_challenge session X (fst pf) in sch_verify (fst pf) X c (snd pf).

  (** schnorr_proof.go 89-114 NewZKVProof *)
  Definition zkv_challenge (session : bytes) (V R alpha : point) : outcome Z :=
    reject_sample n (sha_tagged H session
      (map Some [px V; py V; px R; py R; px (c_g C); py (c_g C); px alpha; py alpha])).
  Definition zkv_new (session : bytes) (V R : point) (s l a b : Z) : outcome (option (point * Z * Z)) :=
    if on C V && on C R then
      match pt_smul C R a, base_mul C b with
      | Some aR, Some bG =>
        match pt_add C aR bG with
        | None => Panic
        | Some alpha => let! c := zkv_challenge session V R alpha in
                        Ret (Some (alpha, (a + c * s) mod n, (b + c * l) mod n))
        end
      | _, _ => Panic
      end
    else Ret None.
  (** schnorr_proof.go 116-138 ZKVProof.Verify *)
  Definition zkv_verify (session : bytes) (V R : point) (pf : point * Z * Z) : outcome bool :=
    let '(alpha, t, u) := pf in
    if on C alpha then
      let! c := zkv_challenge session V R alpha in
      match pt_smul C R t, base_mul C u with
      | Some tR, Some uG =>
        match pt_add C tR uG with
        | None => Panic
        | Some lhs =>
          match pt_smul C V c with
          | None => Panic
          | Some Vc => match pt_add C alpha Vc with None => Ret false | Some rhs => Ret (pt_eqb lhs rhs) end
          end
        end
      | _, _ => Panic
      end
    else Ret false.
End Model.

Section Theory.
  Variable C : curve.
  Hypothesis L : curve_laws C.
  Variable H : bytes -> bytes.
  Notation n := (c_n C).
  Notation gmul := (gmul C).

  Lemma sch_verify_eq A X c z : on C A = true -> on C X = true ->
    sch_verify C A X c z = Ret (pt_eqb (c_add C A (c_smul C X (c mod n))) (gmul z)).
  Proof.
    intros HA HX. unfold sch_verify. rewrite pt_smul_eq by auto.
    pose proof (n_gt1 C L). assert (0 <= c mod n < n) by (apply Z.mod_pos_bound; lia).
    rewrite pt_add_eq by (auto; apply on_smul; auto; lia). rewrite base_mul_eq by auto. reflexivity.
  Qed.

  (** completeness *)
  Lemma sch_complete tau c x : sch_verify C (gmul tau) (gmul x) c (sch_prove n tau c x) = Ret true.
  Proof.
    rewrite sch_verify_eq by (apply gmul_on; auto). f_equal. apply pt_eqb_eq.
    pose proof (n_gt1 C L). assert (0 <= c mod n < n) by (apply Z.mod_pos_bound; lia).
    rewrite gmul_mul, gmul_add by (auto; lia). unfold sch_prove. rewrite (gmul_mod C L). apply gmul_eqm.
    rewrite <- Z.add_mod_idemp_r, Z.mul_mod_idemp_l, Z.add_mod_idemp_r by lia. reflexivity.
  Qed.

  (** a response verifies iff it is congruent to tau + c x (uniqueness of the response) *)
  Lemma sch_verify_iff tau x c z :
    sch_verify C (gmul tau) (gmul x) c z = Ret true <-> z mod n = (tau + c * x) mod n.
  Proof.
    rewrite sch_verify_eq by (apply gmul_on; auto).
    pose proof (n_gt1 C L). assert (0 <= c mod n < n) by (apply Z.mod_pos_bound; lia).
    rewrite gmul_mul, gmul_add by (auto; lia).
    assert (E : (tau + c mod n * x) mod n = (tau + c * x) mod n)
      by (rewrite <- Z.add_mod_idemp_r, Z.mul_mod_idemp_l, Z.add_mod_idemp_r by lia; reflexivity).
    split.
    - intro Hr. inversion Hr as [Hq]. apply pt_eqb_eq in Hq. apply (gmul_inj C L) in Hq. congruence.
    - intro Hz. f_equal. apply pt_eqb_eq. apply gmul_eqm. congruence.
  Qed.

  (** inverse mod the prime n *)
  Lemma inv_mod a : a mod n <> 0 -> exists w, 0 <= w < n /\ (w * a) mod n = 1.
  Proof.
    intro Ha. pose proof (n_gt1 C L). 
    assert (R : rel_prime a n).
    { apply rel_prime_sym, prime_rel_prime; [apply (cl_prime C L)|]. intro D. apply Ha. apply Z.mod_divide; [lia|exact D]. }
    apply rel_prime_bezout in R. destruct R as [u v E].
    exists (u mod n). split; [apply Z.mod_pos_bound; lia|].
    rewrite Z.mul_mod_idemp_l by lia. replace (u * a) with (1 + (- v) * n) by lia.
    rewrite Z_mod_plus_full. apply Z.mod_1_l. lia.
  Qed.

  (** special soundness with the extracted witness made explicit *)
  Lemma sch_extract_scalar tau x c c' z z' :
    sch_verify C (gmul tau) (gmul x) c z = Ret true ->
    sch_verify C (gmul tau) (gmul x) c' z' = Ret true ->
    c mod n <> c' mod n ->
    forall w, (w * (c - c')) mod n = 1 -> x mod n = (w * (z - z')) mod n.
  Proof.
    intros H1 H2 Hc w Hw. apply sch_verify_iff in H1. apply sch_verify_iff in H2.
    pose proof (n_gt1 C L).
    assert (E : (z - z') mod n = ((c - c') * x) mod n).
    { rewrite Zminus_mod, H1, H2, <- Zminus_mod. f_equal. lia. }
    rewrite <- Z.mul_mod_idemp_r, E, Z.mul_mod_idemp_r by lia.
    replace (w * ((c - c') * x)) with ((w * (c - c')) * x) by lia.
    rewrite <- Z.mul_mod_idemp_l, Hw, Z.mul_1_l by lia. reflexivity.
  Qed.

  (** for arbitrary (possibly adversarial) curve points the witness is extracted up to the cofactor *)
  Lemma sch_special_sound A X c c' z z' :
    on C A = true -> on C X = true ->
    sch_verify C A X c z = Ret true -> sch_verify C A X c' z' = Ret true -> c mod n <> c' mod n ->
    exists x, c_smul C X 8 = gmul (8 * x).
  Proof.
    intros HA HX H1 H2 Hc. pose proof (n_gt1 C L) as Hn.
    rewrite sch_verify_eq in H1, H2 by auto.
    inversion H1 as [E1]. inversion H2 as [E2]. apply pt_eqb_eq in E1. apply pt_eqb_eq in E2. clear H1 H2.
    assert (W : forall a b za zb, 0 <= b < a -> a < n ->
      c_add C A (c_smul C X a) = gmul za -> c_add C A (c_smul C X b) = gmul zb ->
      exists x, c_smul C X 8 = gmul (8 * x)).
    { clear c c' z z' Hc E1 E2. intros a b za zb Hab Han E1 E2.
      assert (D : c_smul C X (a - b) = gmul (za - zb)).
      { apply (add_cancel_l C L (gmul zb)); [apply gmul_on; auto|apply canon_smul; auto; lia|apply gmul_canon; auto|].
        { rewrite gmul_add by auto. replace (zb + (za - zb)) with za by lia.
          rewrite <- E1, <- E2. rewrite (cl_assoc C L) by (auto; apply on_smul; auto; lia).
          rewrite <- (smul_add C L) by (auto; lia). do 2 f_equal. lia. } }
      destruct (inv_mod (a - b)) as (w & Hw & Ew); [rewrite Z.mod_small; lia|].
      exists (w * (za - zb)).
      assert (S8 : c_smul C X (8 * (w * (a - b))) = gmul (8 * (w * (za - zb)))).
      { replace (8 * (w * (a - b))) with ((8 * w) * (a - b)) by lia.
        rewrite (smul_mul C L) by (auto; nia). rewrite D, gmul_mul by (auto; nia). f_equal. lia. }
      rewrite <- S8.
      assert (Q : w * (a - b) = 1 + n * ((w * (a - b)) / n)) by (pose proof (Z.div_mod (w * (a - b)) n); lia).
      assert (0 <= (w * (a - b)) / n) by (apply Z.div_pos; nia).
      rewrite Q. replace (8 * (1 + n * (w * (a - b) / n))) with (8 + (w * (a - b) / n) * (8 * n)) by lia.
      rewrite (smul_add C L) by (auto; nia). rewrite (smul_mul C L X) by (auto; nia).
      rewrite (cl_cofactor C L) by auto. rewrite (smul_id C L) by auto.
      rewrite (cl_comm C L) by (try apply on_smul; try apply on_id; auto; lia).
      rewrite (cl_id_l C L) by (apply canon_smul; auto; lia). reflexivity. }
    assert (R1 : 0 <= c mod n < n) by (apply Z.mod_pos_bound; lia).
    assert (R2 : 0 <= c' mod n < n) by (apply Z.mod_pos_bound; lia).
    destruct (Z.lt_total (c mod n) (c' mod n)) as [Lt|[Eq|Gt]]; [|congruence|].
    - eapply (W (c' mod n) (c mod n)); eauto; lia.
    - eapply (W (c mod n) (c' mod n)); eauto; lia.
  Qed.

  Lemma sha_tagged_some tag x xs : exists e, sha_tagged H tag (map Some (x :: xs)) = Some e.
  Proof. cbn [map sha_tagged]. eexists; reflexivity. Qed.

  Lemma zk_complete session x a : exists pf,
    zk_new C H session x (gmul x) a = Ret (Some pf) /\ zk_verify C H session (gmul x) pf = Ret true.
  Proof.
    unfold zk_new. rewrite gmul_on, base_mul_eq by auto.
    unfold zk_challenge at 1. destruct (sha_tagged_some session (px (gmul x))
      [py (gmul x); px (c_g C); py (c_g C); px (gmul a); py (gmul a)]) as [e He].
    rewrite He. cbn [reject_sample obind]. eexists. split; [reflexivity|].
    unfold zk_verify, zk_challenge. cbn [fst snd]. rewrite He. cbn [reject_sample obind].
    apply sch_complete.
  Qed.

  (** completeness of the two-witness proof for every R in the prime-order subgroup *)
  Lemma zkv_complete session r s l a b :
    let R := gmul r in let V := gmul (s * r + l) in exists pf,
    zkv_new C H session V R s l a b = Ret (Some pf) /\ zkv_verify C H session V R pf = Ret true.
  Proof.
    intros R V. pose proof (n_gt1 C L) as Hn.
    assert (HR : on C R = true) by (apply gmul_on; auto).
    assert (HV : on C V = true) by (apply gmul_on; auto).
    unfold zkv_new. rewrite HV, HR. cbn [andb]. unfold R at 1. rewrite pt_smul_gmul, base_mul_eq by auto.
    rewrite pt_add_gmul by auto.
    set (alpha := gmul (a * r + b)).
    assert (HA : on C alpha = true) by (apply gmul_on; auto).
    unfold zkv_challenge at 1.
    destruct (sha_tagged_some session (px V) [py V; px R; py R; px (c_g C); py (c_g C); px alpha; py alpha]) as [e He].
    rewrite He. cbn [reject_sample obind]. eexists. split; [reflexivity|].
    unfold zkv_verify. rewrite HA. unfold zkv_challenge. rewrite He. cbn [reject_sample obind].
    set (c := e mod n).
    unfold R at 1. rewrite pt_smul_gmul, base_mul_eq by auto. rewrite pt_add_gmul by auto.
    unfold V. rewrite pt_smul_gmul by auto. unfold alpha. rewrite pt_add_gmul by auto.
    f_equal. apply pt_eqb_eq. apply gmul_eqm.
    rewrite Z.add_mod, Z.mul_mod_idemp_l, Z.mod_mod, <- Z.add_mod by lia. f_equal. lia.
  Qed.

  (** what acceptance means for every presented proof *)
  Lemma zkv_sound_eq session V R alpha t u :
    on C V = true -> on C R = true ->
    zkv_verify C H session V R (alpha, t, u) = Ret true ->
    on C alpha = true /\ exists e, sha_tagged H session (map Some
        [px V; py V; px R; py R; px (c_g C); py (c_g C); px alpha; py alpha]) = Some e /\
      c_add C (c_smul C R (t mod n)) (gmul u) = c_add C alpha (c_smul C V (e mod n)).
  Proof.
    intros HV HR. unfold zkv_verify. destruct (on C alpha) eqn:HA; [|discriminate]. unfold zkv_challenge.
    destruct (sha_tagged_some session (px V) [py V; px R; py R; px (c_g C); py (c_g C); px alpha; py alpha]) as [e He].
    rewrite He. cbn [reject_sample obind]. pose proof (n_gt1 C L) as Hn.
    assert (M : forall k, 0 <= k mod n < n) by (intro; apply Z.mod_pos_bound; lia).
    rewrite pt_smul_eq, base_mul_eq by auto.
    rewrite pt_add_eq by (auto; first [apply gmul_on; auto; fail | apply on_smul; auto; apply M]).
    rewrite pt_smul_eq by auto. rewrite pt_add_eq by (auto; apply on_smul; auto; apply M).
    rewrite Z.mod_mod by lia. intro Q. inversion Q as [E]. apply pt_eqb_eq in E.
    split; auto. exists e. split; auto.
  Qed.
End Theory.
