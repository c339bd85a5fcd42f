(** PropRange.v -- C27 (encrypted-nonce range proofs) and C28 (discrete-log range proofs).

    Reading guide.  [enc_new]/[enc_verify] and [log_new]/[log_verify] (RangeProofs.v) model the prover and
    verifier; the record [enc_accepts] / [log_accepts] (RangeThm.v) lists, as plain congruences, what acceptance
    is supposed to mean.  B is any function standing for blake2b-256. *)
From Verif Require Import Base BigInt Text Wire Messages Save Curve NumTh Carmichael Paillier PropPaillier RangeProofs RangeThm ToyCurve.
From Coq Require Import Znumtheory.

(** the verifier's key and the ciphertext of the nonce, as an honest signer produces them *)
Record honest_nonce (N K k rho q : Z) (pd : ped) : Prop := {
  hn_ped : ped_ok pd;
  hn_rho : Z.gcd rho N = 1;
  hn_K : cong (N * N) K ((1 + N * k) * rho ^ N) /\ 0 <= K < N * N;
  hn_k : 0 <= k < q }.

Lemma two_pow_K N K k rho : 1 < N -> cong (N * N) K ((1 + N * k) * rho ^ N) -> 0 <= K < N * N -> 0 <= k ->
  two_pow (1 + N) k rho N (N * N) = Ret K.
Proof.
  intros HN HK HR Hk. assert (M : 0 < N * N) by nia. unfold two_pow. rewrite !expm_nonneg by lia. f_equal.
  apply (cong_small (N * N)); [apply Z.mod_pos_bound; exact M|exact HR|].
  rewrite HK. rewrite cong_mod by exact M. rewrite (cong_mod (N * N) ((1 + N) ^ k)) by exact M.
  rewrite (cong_mod (N * N) (rho ^ N)) by exact M. rewrite (one_plus_pow N k Hk). rewrite (Z.mul_comm k N). reflexivity.
Qed.

(** the equation (1+N)^z1 z2^N = A K^e, for two different challenges and the same A, determines the plaintext of K *)
Section TwoAnswers.
  Variables p q : Z.
  Hypothesis GP : good_primes p q.
  Notation N := (pk_n (key_of p q)).
  Notation lam := (pk_lambda (key_of p q)).

  Lemma unit_N_lam x : Z.gcd x N = 1 -> cong (N * N) ((x ^ N) ^ lam) 1.
  Proof.
    intro G. pose proof (key_N p q GP). pose proof (key_lam_pos p q GP). rewrite <- Z.pow_mul_r by lia.
    destruct GP as [Pp Pq Ne _ _ _]. pose proof (key_p1 p q GP). pose proof (key_q1 p q GP).
    apply (carmichael_sq p q x lam Pp Pq Ne); auto; try lia.
    - rewrite key_lam. apply lcm_of_l; lia.
    - rewrite key_lam. apply lcm_of_r; lia.
  Qed.
  Lemma lin_pow' M a l : 0 <= l -> cong (M * M) ((1 + a * M) ^ l) (1 + (a * l) * M).
  Proof. intro. rewrite (Z.mul_comm a M). apply lin_pow. auto. Qed.

  Lemma Ke_lam k K e Ke : encrypts N k K -> expm K e (N * N) = Some Ke ->
    cong (N * N) (Ke ^ lam) (1 + (e * k * lam) * N).
  Proof.
    intros EK E. pose proof (key_N p q GP) as HN. pose proof (key_N2 p q GP) as HN2. pose proof (key_lam_pos p q GP) as HL.
    assert (KL : cong (N * N) (K ^ lam) (1 + (k * lam) * N)).
    { pose proof (enc_pow_lambda p q GP k K EK) as P. rewrite powm_eq in P by lia. apply cong_eq in P; [exact P|exact HN2]. }
    set (j := Z.max 0 (- e)).
    pose proof (expm_char K e (N * N) Ke HN2 E j ltac:(lia) ltac:(lia)) as C.
    apply (cong_pow _ _ _ lam) in C. rewrite Z.pow_mul_l in C. rewrite <- !Z.pow_mul_r in C by lia.
    rewrite (Z.mul_comm j lam), (Z.mul_comm (e + j) lam) in C. rewrite !Z.pow_mul_r in C by lia.
    rewrite !KL in C. rewrite !lin_pow' in C by lia.
    apply (unit_cancel (N * N) (1 + k * lam * j * N)).
    - apply gcd_sq. rewrite (gcd_cong N _ 1); [apply Z.gcd_1_l|]. exists (k * lam * j). ring.
    - rewrite (Z.mul_comm (1 + k * lam * j * N)). rewrite C. exists (- (k * lam * j * (e * k * lam))). ring.
  Qed.

  Theorem two_answers_plaintext k K A e e' z1 z1' z2 z2' Ke Ke' :
    encrypts N k K -> Z.gcd A N = 1 ->
    expm K e (N * N) = Some Ke -> expm K e' (N * N) = Some Ke' ->
    cong (N * N) ((1 + z1 * N) * z2 ^ N) (A * Ke) ->
    cong (N * N) ((1 + z1' * N) * z2' ^ N) (A * Ke') ->
    cong N (z1 - z1') ((e - e') * k).
  Proof.
    intros EK GA E E' H H'. pose proof (key_N p q GP) as HN. pose proof (key_N2 p q GP) as HN2. pose proof (key_lam_pos p q GP) as HL.
    pose proof (encrypts_unit N HN k K EK) as GK.
    assert (GKe := gcd_sq_inv _ _ (expm_gcd _ _ _ _ HN2 (gcd_sq _ _ GK) E)).
    assert (GKe' := gcd_sq_inv _ _ (expm_gcd _ _ _ _ HN2 (gcd_sq _ _ GK) E')).
    assert (U : forall z w X, Z.gcd X N = 1 -> cong (N * N) ((1 + z * N) * w ^ N) (A * X) -> Z.gcd w N = 1).
    { intros z w X GX HH. assert (G : Z.gcd ((1 + z * N) * w ^ N) N = 1).
      { rewrite (gcd_cong N _ (A * X)) by (apply (cong_div (N * N)); [exists N; ring|exact HH]). apply gcd_mul_1; auto. }
      apply Zgcd_1_rel_prime in G. apply Zgcd_1_rel_prime. eapply rel_prime_div; [exact G|].
      exists ((1 + z * N) * w ^ (N - 1)). rewrite <- Z.mul_assoc. f_equal. rewrite <- (Z.pow_1_r w) at 3.
      rewrite <- Z.pow_add_r by lia. f_equal; lia. }
    pose proof (U _ _ _ GKe H) as G2. pose proof (U _ _ _ GKe' H') as G2'.
    assert (X : cong (N * N) ((1 + z1 * N) * z2 ^ N * Ke') ((1 + z1' * N) * z2' ^ N * Ke)).
    { rewrite H, H'. exists 0. ring. }
    apply (cong_pow _ _ _ lam) in X. rewrite !Z.pow_mul_l in X.
    rewrite (unit_N_lam z2 G2), (unit_N_lam z2' G2') in X.
    rewrite (Ke_lam k K e Ke EK E), (Ke_lam k K e' Ke' EK E') in X. rewrite !lin_pow' in X by lia.
    assert (Y : cong N (lam * (z1 - z1')) (lam * ((e - e') * k))).
    { destruct X as [t X]. exists (t - ((z1 * lam) * (e' * k * lam) - (z1' * lam) * (e * k * lam))).
      assert (N <> 0) by lia. apply (Z.mul_reg_r _ _ N); [assumption|]. 
      replace ((t - (z1 * lam * (e' * k * lam) - z1' * lam * (e * k * lam))) * N * N) with (t * (N * N) - (z1 * lam * (e' * k * lam) - z1' * lam * (e * k * lam)) * (N * N)) by ring.
      rewrite <- X. ring. }
    apply (unit_cancel N lam); [apply (key_lam_gcd p q GP)|exact Y].
  Qed.
End TwoAnswers.

Section C27_28.
  Variable C : curve.
  Hypothesis L : curve_laws C.
  Variable B : bytes -> bytes.
  Notation q := (c_n C).

  (** *** C27 completeness: an honest proof always verifies, as soon as the mask alpha leaves room for e*k.
      (The announced range is 2^(3*bitlen q + 1); alpha in the outermost q^2 of it may be rejected.) *)
  Theorem C27_complete ctx K N k rho pd d m :
    honest_nonce N K k rho q pd -> Z.abs (dr_alpha d) <= 2 ^ (3 * bitlen q + 1) - q * q ->
    enc_new C B ctx K N k rho pd d = Ret (Some m) ->
    enc_verify C B ctx K N pd m = Ret true.
  Proof.
    intros [Hp Hr [HK HKr] Hk] Ha HE.
    destruct (enc_new_inv _ _ _ _ _ _ _ _ _ _ HE) as (r & Sv & A & Cc & e & re & Er & _ & _ & _ & _ & Ee & _ & Em).
    destruct (random_coprime_spec _ _ _ Er) as (HN & _ & _ & _).
    destruct (get_e_spec _ _ _ _ _ _ Ee) as (_ & Ee2 & _).
    eapply enc_complete; eauto; [apply two_pow_K; auto; lia|].
    rewrite Em. cbn [em_z1]. unfold z_of. rewrite ztok_parse.
    assert (cf_bound q = 2 ^ (3 * bitlen q + 1)) as ->.
    { unfold cf_bound, cf_lae. rewrite Z.pow_add_r; [lia| |lia]. unfold bitlen. destruct (Z.eqb_spec q 0); [lia|].
      pose proof (Z.log2_nonneg (Z.abs q)). lia. }
    assert (Z.abs (e * k) <= q * q) by (rewrite Z.abs_mul; nia). lia.
  Qed.

  (** the prover never crashes, and gives up only when its 100 candidates for r or for the salt are exhausted *)
  Theorem C27_prover_total ctx K N k rho pd d : ped_ok pd -> 2 < N -> Z.gcd rho N = 1 ->
    exists o, enc_new C B ctx K N k rho pd d = Ret o /\
      (o = None -> (forall x, In x (firstn 100 (dr_r d)) -> x <= 1 \/ Z.gcd x N <> 1) \/
                   exists parts, forall s, In s (firstn 100 (dr_salts d)) -> q < Z.abs (seed_e B s (hash_protos B s parts) q)).
  Proof.
    intros (Hn & Gs & Gt) HN Gr. unfold enc_new. destruct (random_coprime N (dr_r d)) as [r|] eqn:Er.
    - destruct (random_coprime_spec _ _ _ Er) as (_ & _ & Gr' & _).
      destruct (Z.eqb_spec (pe_n pd) 0); [lia|].
      destruct (two_pow_unit (pe_s pd) k (pe_t pd) (dr_mu d) (pe_n pd)) as (? & ? & _ & _ & E1 & _); auto; [lia|]. rewrite E1. cbn [obind].
      destruct (two_pow_unit (1 + N) (dr_alpha d) r N (N * N)) as (? & ? & _ & _ & E2 & _); [nia|apply one_plus_gcd; lia|apply gcd_sq; auto|]. rewrite E2. cbn [obind].
      destruct (two_pow_unit (pe_s pd) (dr_alpha d) (pe_t pd) (dr_gamma d) (pe_n pd)) as (? & ? & _ & _ & E3 & _); auto; [lia|]. rewrite E3. cbn [obind].
      match goal with |- context [get_e B q ?ps ?ss] => destruct (get_e B q ps ss) as [[e s]|] eqn:Ee; set (parts := ps) in * end.
      + destruct (expm_unit rho e N) as [re Ere]; [lia|auto|]. rewrite Ere. eexists. split; [reflexivity|discriminate].
      + exists None. split; [reflexivity|]. intros _. right. exists parts. unfold get_e in Ee. revert Ee.
        induction (firstn 100 (dr_salts d)) as [|s0 l IH]; cbn [get_e_loop]; [intros _ s []|]. cbv zeta.
        destruct (Z.leb_spec (Z.abs (seed_e B s0 (hash_protos B s0 parts) q)) q); [discriminate|].
        intros E s [<-|I]; [lia|apply IH; auto].
    - exists None. split; [reflexivity|]. intros _. left. unfold random_coprime in Er. destruct (Z.leb_spec N 2); [lia|]. revert Er.
      induction (firstn 100 (dr_r d)) as [|x l IH]; cbn [coprime_loop]; [intros _ s []|].
      unfold rel_primeb. destruct (Z.leb_spec x 1); [|destruct (Z.eqb_spec (Z.gcd x N) 1); [discriminate|]];
        intros E s [<-|I]; auto.
  Qed.

  (** *** C27 soundness: acceptance implies every listed bound and equation *)
  Theorem C27_accept_implies ctx K N pd m : enc_verify C B ctx K N pd m = Ret true ->
    exists e z1 z3, enc_accepts C B ctx K N pd m e z1 z3.
  Proof. apply enc_sound. Qed.

  (** two accepted answers with one commitment A and different challenges determine the encrypted nonce mod N *)
  Theorem C27_two_answers p r ctx ctx' K k pd pd' m m' e e' z1 z1' z3 z3' : good_primes p r ->
    encrypts (p * r) k K -> em_A m = em_A m' ->
    enc_accepts C B ctx K (p * r) pd m e z1 z3 -> enc_accepts C B ctx' K (p * r) pd' m' e' z1' z3' ->
    cong (p * r) (z1 - z1') ((e - e') * k).
  Proof.
    intros GP EK EA H H'. destruct (ea_paillier _ _ _ _ _ _ _ _ _ _ H) as (Ke & E & P).
    destruct (ea_paillier _ _ _ _ _ _ _ _ _ _ H') as (Ke' & E' & P'). rewrite <- EA in P'.
    eapply (two_answers_plaintext p r GP k K); eauto. apply (ea_units _ _ _ _ _ _ _ _ _ _ H).
  Qed.

  (** *** C28 *)
  Theorem C28_complete ctx K N k rho pd d m :
    honest_nonce N K k rho q pd -> Z.abs (dr_alpha d) <= 2 ^ (3 * bitlen q + 1) - q * q ->
    log_new C B ctx k rho K N pd (gmul C k) d = Ret (Some m) ->
    log_verify C B ctx K N pd (gmul C k) m = Ret true.
  Proof.
    intros [Hp Hr [HK HKr] Hk] Ha HE.
    destruct (log_new_inv _ _ _ _ _ _ _ _ _ _ _ HE) as (r & Sv & A & D & Y & e & re & Er & _ & _ & _ & _ & _ & Ee & _ & Em).
    destruct (random_coprime_spec _ _ _ Er) as (HN & _ & _ & _).
    destruct (get_e_spec _ _ _ _ _ _ Ee) as (_ & Ee2 & _).
    eapply log_complete; eauto; [apply two_pow_K; auto; lia|].
    rewrite Em. cbn [lm_z1]. unfold z_of. rewrite ztok_parse.
    assert (cf_bound q = 2 ^ (3 * bitlen q + 1)) as ->.
    { unfold cf_bound, cf_lae. rewrite Z.pow_add_r; [lia| |lia]. unfold bitlen. destruct (Z.eqb_spec q 0); [lia|].
      pose proof (Z.log2_nonneg (Z.abs q)). lia. }
    assert (Z.abs (e * k) <= q * q) by (rewrite Z.abs_mul; nia). lia.
  Qed.

  Theorem C28_prover_total ctx K N k rho pd X d : ped_ok pd -> 2 < N -> Z.gcd rho N = 1 ->
    exists o, log_new C B ctx k rho K N pd X d = Ret o /\
      (o = None -> (forall x, In x (firstn 100 (dr_r d)) -> x <= 1 \/ Z.gcd x N <> 1) \/
                   exists parts, forall s, In s (firstn 100 (dr_salts d)) -> q < Z.abs (seed_e B s (hash_protos B s parts) q)).
  Proof.
    intros (Hn & Gs & Gt) HN Gr. unfold log_new. destruct (random_coprime N (dr_r d)) as [r|] eqn:Er.
    - destruct (random_coprime_spec _ _ _ Er) as (_ & _ & Gr' & _).
      destruct (Z.eqb_spec (pe_n pd) 0); [lia|].
      destruct (two_pow_unit (pe_s pd) k (pe_t pd) (dr_mu d) (pe_n pd)) as (? & ? & _ & _ & E1 & _); auto; [lia|]. rewrite E1. cbn [obind].
      destruct (two_pow_unit (1 + N) (dr_alpha d) r N (N * N)) as (? & ? & _ & _ & E2 & _); [nia|apply one_plus_gcd; lia|apply gcd_sq; auto|]. rewrite E2. cbn [obind].
      rewrite (smul_g_gmul C L). cbn [deref obind].
      destruct (two_pow_unit (pe_s pd) (dr_alpha d) (pe_t pd) (dr_gamma d) (pe_n pd)) as (? & ? & _ & _ & E3 & _); auto; [lia|]. rewrite E3. cbn [obind].
      match goal with |- context [get_e B q ?ps ?ss] => destruct (get_e B q ps ss) as [[e s]|] eqn:Ee; set (parts := ps) in * end.
      + destruct (expm_unit rho e N) as [re Ere]; [lia|auto|]. rewrite Ere. eexists. split; [reflexivity|discriminate].
      + exists None. split; [reflexivity|]. intros _. right. exists parts. unfold get_e in Ee. revert Ee.
        induction (firstn 100 (dr_salts d)) as [|s0 l IH]; cbn [get_e_loop]; [intros _ s []|]. cbv zeta.
        destruct (Z.leb_spec (Z.abs (seed_e B s0 (hash_protos B s0 parts) q)) q); [discriminate|].
        intros E s [<-|I]; [lia|apply IH; auto].
    - exists None. split; [reflexivity|]. intros _. left. unfold random_coprime in Er. destruct (Z.leb_spec N 2); [lia|]. revert Er.
      induction (firstn 100 (dr_r d)) as [|x l IH]; cbn [coprime_loop]; [intros _ s []|].
      unfold rel_primeb. destruct (Z.leb_spec x 1); [|destruct (Z.eqb_spec (Z.gcd x N) 1); [discriminate|]];
        intros E s [<-|I]; auto.
  Qed.

  Theorem C28_accept_implies ctx K N pd X m : log_verify C B ctx K N pd X m = Ret true ->
    exists e z1 z3 Y, log_accepts C B ctx K N pd X m e z1 z3 Y.
  Proof. apply log_sound. exact L. Qed.

  (** two accepted answers with the same A and Y and different challenges: the plaintext k of K and the discrete
      log x of the nonce point satisfy the same linear equation, one mod N and one mod the group order *)
  Theorem C28_two_answers p r ctx ctx' K k x pd pd' m m' e e' z1 z1' z3 z3' Y : good_primes p r ->
    encrypts (p * r) k K -> lm_A m = lm_A m' ->
    log_accepts C B ctx K (p * r) pd (gmul C x) m e z1 z3 Y -> log_accepts C B ctx' K (p * r) pd' (gmul C x) m' e' z1' z3' Y ->
    cong (p * r) (z1 - z1') ((e - e') * k) /\ cong q (z1 - z1') ((e - e') * x).
  Proof.
    intros GP EK EA H H'. split.
    - destruct (la_paillier _ _ _ _ _ _ _ _ _ _ _ _ H) as (Ke & E & P).
      destruct (la_paillier _ _ _ _ _ _ _ _ _ _ _ _ H') as (Ke' & E' & P'). rewrite <- EA in P'.
      eapply (two_answers_plaintext p r GP k K); eauto. apply (la_units _ _ _ _ _ _ _ _ _ _ _ _ H).
    - pose proof (n_gt1 C L) as Hq. pose proof (gmul_on C L) as On.
      destruct (la_Y _ _ _ _ _ _ _ _ _ _ _ _ H) as [_ OY].
      assert (S : forall f zz, c_add C (c_smul C (gmul C x) (f mod q)) Y = gmul C zz -> c_add C (c_id C) Y = gmul C (zz - f * x)).
      { intros f zz Q. rewrite (gmul_mul C L) in Q by (apply Z.mod_pos_bound; lia).
        apply (f_equal (c_add C (gmul C (- (f mod q * x))))) in Q. rewrite <- (cl_assoc C L) in Q by auto.
        rewrite !(gmul_add C L) in Q. rewrite Z.add_opp_diag_l, (gmul_0 C L) in Q. rewrite Q.
        apply (gmul_eqm C). apply cong_eq; [lia|].
        destruct (cong_mod q f ltac:(lia)) as [t Cf]. exists (- (t * x)). 
        replace (f mod q) with (f + t * q) by lia. ring. }
      pose proof (S _ _ (la_curve _ _ _ _ _ _ _ _ _ _ _ _ H (On x))) as S1.
      pose proof (S _ _ (la_curve _ _ _ _ _ _ _ _ _ _ _ _ H' (On x))) as S2.
      rewrite S1 in S2. apply (gmul_inj C L) in S2. apply cong_eq in S2; [|lia]. destruct S2 as [t S2]. exists t. lia.
  Qed.

End C27_28.

(** *** transcripts are bound by the challenge hash: equal hash inputs come from the same salt and the same parts *)
Lemma any_enc_len u v : Z.of_nat (length (any_enc u v)) <= 40 + Z.of_nat (length u) + Z.of_nat (length v).
Proof.
  unfold any_enc. rewrite pb_enc_app, app_length. pose proof (pb_fbytes_len 1 u). pose proof (pb_fbytes_len 2 v). lia.
Qed.
Lemma any_enc_inj u v v' : small u -> small v -> small v' -> any_enc u v = any_enc u v' -> v = v'.
Proof.
  intros Hu Hv Hv' E. apply (f_equal pb_dec) in E. unfold any_enc in E.
  rewrite !pb_roundtrip in E by (apply Forall_app; split; apply fbytes_ok; try lia; assumption).
  apply Some_inj in E. apply app_inv_head in E. destruct v, v'; cbn in E; congruence.
Qed.
Theorem C27_transcript_binding salt salt' parts parts' :
  tiny salt -> tiny salt' -> Forall tiny parts -> Forall tiny parts' ->
  hash_input salt parts = hash_input salt' parts' -> salt = salt' /\ parts = parts'.
Proof.
  intros Hs Hs' Hp Hp' E. unfold hash_input in E.
  assert (T0 : forall x, tiny x -> Z.of_nat (length (any_enc [] x)) < 2 ^ 62).
  { intros x Hx. pose proof (any_enc_len [] x) as A. unfold tiny in Hx. cbn [length] in A. lia. }
  assert (T1 : forall x, tiny x -> small (any_enc any_url (any_enc [] x))).
  { intros x Hx. unfold small. pose proof (any_enc_len any_url (any_enc [] x)) as A.
    pose proof (any_enc_len [] x) as A'. unfold tiny in Hx. cbn [length] in A'. change (length any_url) with 39%nat in A. lia. }
  assert (OK : forall s ps, tiny s -> Forall tiny ps ->
    Forall field_ok (map (fun b => (1, WLen (any_enc any_url (any_enc [] b)))) ps ++ [(1, WLen (any_enc [] s))])).
  { intros s ps S0 P0. apply Forall_app. split.
    - apply Forall_map. eapply Forall_impl; [|exact P0]. intros b Hb. split; cbn [fst snd]; [lia|apply T1; auto].
    - constructor; [|constructor]. split; cbn [fst snd]; [lia|]. pose proof (T0 s S0). lia. }
  apply (f_equal pb_dec) in E. rewrite !pb_roundtrip in E by (apply OK; auto). apply Some_inj in E.
  apply app_inj_tail in E. destruct E as [E1 E2]. assert (St : forall x, tiny x -> small x) by (intros x Hx; unfold small, tiny in *; lia).
  split.
  - assert (E2' : any_enc [] salt = any_enc [] salt') by congruence. clear E2. rename E2' into E2. apply any_enc_inj in E2; auto; reflexivity.
  - revert parts' Hp' E1. induction Hp as [|b l Hb Hl IH]; intros [|b' l'] Hp' E1; cbn [map] in E1; try discriminate; [reflexivity|].
    inversion Hp' as [|? ? Hb' Hl']; subst. assert (E3 : any_enc any_url (any_enc [] b) = any_enc any_url (any_enc [] b')) by congruence.
    f_equal; [|apply IH; auto; congruence]. clear E1.
    apply any_enc_inj in E3; [|reflexivity| |].
    + apply any_enc_inj in E3; auto; reflexivity.
    + unfold small. pose proof (T0 b Hb). lia.
    + unfold small. pose proof (T0 b' Hb'). lia.
Qed.

(** *** concrete data: p = 11, q = 13 (N = 143), verifier modulus 323 = 17 * 19 *)
Definition ex_ped : ped := {| pe_n := 323; pe_s := 4; pe_t := 9 |}.
Definition ex_draws : pdraws := {| dr_alpha := 100; dr_mu := 5; dr_r := [0; 13; 8]; dr_gamma := -7;
  dr_salts := map (fun i => repeat (zb (Z.of_nat i)) 32) (seq 1 60) |}.
Definition ex_K : Z := match pal_encrypt 143 5 7 with Some c => c | None => 0 end.
(** a cheap 32-byte stand-in for the hash *)
Definition ex_hash (b : bytes) : bytes := repeat (zb (fold_left (fun a c => (a * 3 + bz c) mod 251) b 0)) 32.

Section ExTest.
  Variable C : curve.
  Variable B : bytes -> bytes.
  Variables ctx ctx2 : bytes.
  Variables K N k rho : Z.
  Variable pd : ped.
  Variables X X2 : point.
  Variable d : pdraws.
  Definition bad_enc (m : encmsg) : encmsg :=
    {| em_salt := em_salt m; em_S := em_S m; em_A := em_A m; em_C := em_C m; em_z1 := str "z"; em_z2 := em_z2 m; em_z3 := em_z3 m |}.
  Definition bad_log (l : logmsg) : logmsg :=
    {| lm_salt := lm_salt l; lm_S := lm_S l; lm_A := lm_A l; lm_Yx := lm_Yx l; lm_Yy := lm_Yy l; lm_D := lm_D l; lm_z1 := []; lm_z2 := lm_z2 l; lm_z3 := lm_z3 l |}.
  Definition ex_test : bool :=
    match enc_new C B ctx K N k rho pd d, log_new C B ctx k rho K N pd X d with
    | Ret (Some m), Ret (Some l) =>
        match enc_verify C B ctx K N pd m, log_verify C B ctx K N pd X l, enc_verify C B ctx2 K N pd m,
              log_verify C B ctx K N pd X2 l, enc_verify C B ctx K N pd (bad_enc m), log_verify C B ctx K N pd X (bad_log l) with
        | Ret true, Ret true, Ret false, Ret false, Panic, Panic => true
        | _, _, _, _, _, _ => false
        end
    | _, _ => false
    end.
  Lemma ex_test_spec : ex_test = true ->
    exists m l, enc_new C B ctx K N k rho pd d = Ret (Some m) /\ log_new C B ctx k rho K N pd X d = Ret (Some l) /\
      enc_verify C B ctx K N pd m = Ret true /\ log_verify C B ctx K N pd X l = Ret true /\
      enc_verify C B ctx2 K N pd m = Ret false /\ log_verify C B ctx K N pd X2 l = Ret false /\
      (exists m', em_z1 m' = str "z" /\ enc_verify C B ctx K N pd m' = Panic) /\
      (exists l', lm_z1 l' = [] /\ log_verify C B ctx K N pd X l' = Panic).
  Proof.
    unfold ex_test.
    destruct (enc_new _ _ _ _ _ _ _ _ _) as [[m|]|]; try discriminate.
    destruct (log_new _ _ _ _ _ _ _ _ _ _) as [[l|]|]; try discriminate. intro H. exists m, l.
    split; [reflexivity|]. split; [reflexivity|]. revert H.
    destruct (enc_verify C B ctx K N pd m) as [[]|]; try discriminate.
    destruct (log_verify C B ctx K N pd X l) as [[]|]; try discriminate.
    destruct (enc_verify C B ctx2 K N pd m) as [[]|]; try discriminate.
    destruct (log_verify C B ctx K N pd X2 l) as [[]|]; try discriminate.
    destruct (enc_verify C B ctx K N pd (bad_enc m)) eqn:E1; try discriminate.
    destruct (log_verify C B ctx K N pd X (bad_log l)) eqn:E2; try discriminate.
    intros _. repeat (split; [reflexivity|]). split; [exists (bad_enc m)|exists (bad_log l)]; split; auto.
  Qed.
End ExTest.
Lemma ex_test_ok : ex_test toy ex_hash (str "ctx") (str "ctx2") ex_K 143 5 7 ex_ped (gmul toy 5) (gmul toy 6) ex_draws = true.
Proof. vm_cast_no_check (eq_refl true). Qed.

(** the hypotheses of the completeness theorems are met by this concrete run, and the verifier does discriminate *)
Theorem C27_C28_example : honest_nonce 143 ex_K 5 7 (c_n toy) ex_ped /\
  Z.abs (dr_alpha ex_draws) <= 2 ^ (3 * bitlen (c_n toy) + 1) - c_n toy * c_n toy /\
  exists m l, enc_new toy ex_hash (str "ctx") ex_K 143 5 7 ex_ped ex_draws = Ret (Some m) /\
    log_new toy ex_hash (str "ctx") 5 7 ex_K 143 ex_ped (gmul toy 5) ex_draws = Ret (Some l) /\
    enc_verify toy ex_hash (str "ctx") ex_K 143 ex_ped m = Ret true /\
    log_verify toy ex_hash (str "ctx") ex_K 143 ex_ped (gmul toy 5) l = Ret true /\
    enc_verify toy ex_hash (str "ctx2") ex_K 143 ex_ped m = Ret false /\
    log_verify toy ex_hash (str "ctx") ex_K 143 ex_ped (gmul toy 6) l = Ret false.
Proof.
  split; [|split].
  - constructor; [repeat split; reflexivity|reflexivity| |cbn; lia].
    assert (E : encrypts 143 5 ex_K).
    { apply (pal_encrypt_encrypts 143 ltac:(lia) 5 7 ex_K); [split; [lia|reflexivity]|vm_compute; reflexivity]. }
    split; [|apply E]. vm_compute ex_K. apply cong_eq; [lia|]. vm_compute. reflexivity.
  - vm_compute. discriminate.
  - destruct (ex_test_spec _ _ _ _ _ _ _ _ _ _ _ _ ex_test_ok) as (m & l & H1 & H2 & H3 & H4 & H5 & H6 & _). exists m, l. repeat split; auto.
Qed.

(** REFUTED: "malformed encodings are rejected with an error rather than a crash".  A peer message whose z1 is not
    a decimal number passes every earlier check and then crashes the verifier (nil dereference). *)
Theorem C27_malformed_z1_panics_refuted :
  exists C B ctx K N pd m, curve_laws C /\ ped_ok pd /\ enc_verify C B ctx K N pd m = Panic.
Proof.
  destruct (ex_test_spec _ _ _ _ _ _ _ _ _ _ _ _ ex_test_ok) as (_ & _ & _ & _ & _ & _ & _ & _ & (m' & _ & H) & _).
  exists toy, ex_hash, (str "ctx"), ex_K, 143, ex_ped, m'. split; [exact toy_laws|]. split; [repeat split; reflexivity|exact H].
Qed.
Theorem C28_malformed_z1_panics_refuted :
  exists C B ctx K N pd X m, curve_laws C /\ ped_ok pd /\ log_verify C B ctx K N pd X m = Panic.
Proof.
  destruct (ex_test_spec _ _ _ _ _ _ _ _ _ _ _ _ ex_test_ok) as (_ & _ & _ & _ & _ & _ & _ & _ & _ & (l' & _ & H)).
  exists toy, ex_hash, (str "ctx"), ex_K, 143, ex_ped, (gmul toy 5), l'. split; [exact toy_laws|]. split; [repeat split; reflexivity|exact H].
Qed.

(** what does hold: with usable parameters and a ciphertext that is a unit, an unreadable z1 or z3 is the only
    way to crash either verifier; everything else is accepted or rejected *)
Theorem C27_panics_only_on_unreadable_partial C B ctx K N pd m : ped_ok pd -> 0 < N -> Z.gcd K N = 1 ->
  enc_verify C B ctx K N pd m = Panic -> parse_int 10 (em_z1 m) = None \/ parse_int 10 (em_z3 m) = None.
Proof.
  intros (Hn & Gs & Gt) HN GK. assert (M : 0 < N * N) by nia. assert (Mp : 0 < pe_n pd) by lia.
  destruct (parse_int 10 (em_z1 m)) as [z1|] eqn:Z1; [|auto]. destruct (parse_int 10 (em_z3 m)) as [z3|] eqn:Z3; [|auto].
  intro H. exfalso. revert H. unfold enc_verify. rewrite Z1, Z3. cbn [deref obind].
  unfold rel_primeb. destruct (in_range0 (of_be (em_S m)) (pe_n pd)); cbn [negb]; [|discriminate].
  destruct (Z.eqb_spec (Z.gcd (of_be (em_S m)) (pe_n pd)) 1) as [GS|]; cbn [negb]; [|discriminate].
  destruct (in_range0 (of_be (em_C m)) (pe_n pd)); cbn [negb]; [|discriminate].
  destruct (Z.gcd (of_be (em_C m)) (pe_n pd) =? 1); cbn [negb]; [|discriminate].
  destruct (in_range0 (of_be (em_z2 m)) N); cbn [negb]; [|discriminate].
  destruct (in_range0 (of_be (em_A m)) (N * N)); cbn [negb]; [|discriminate].
  destruct (Z.gcd (of_be (em_A m)) N =? 1); cbn [negb]; [|discriminate].
  match goal with |- context [in_range ?x _ _] => set (e := x) end.
  destruct (in_range e _ _); cbn [negb]; [|discriminate].
  destruct (cf_bound (c_n C) <? Z.abs z1); [discriminate|].
  destruct (expm_unit K e (N * N) M (gcd_sq _ _ GK)) as [Ke ->]. cbn [deref obind].
  destruct (expm_unit (1 + N) z1 (N * N) M (one_plus_gcd N HN)) as [gz ->]. cbn [deref obind].
  rewrite expm_nonneg by lia. cbn [deref obind].
  match goal with |- context [if negb ?b then _ else _] => destruct b; cbn [negb]; [|discriminate] end.
  destruct (expm_unit (of_be (em_S m)) e (pe_n pd) Mp GS) as [? ->]. cbn [deref obind].
  destruct (expm_unit (pe_s pd) z1 (pe_n pd) Mp Gs) as [? ->]. cbn [deref obind].
  destruct (expm_unit (pe_t pd) z3 (pe_n pd) Mp Gt) as [? ->]. cbn [deref obind]. discriminate.
Qed.
Theorem C28_panics_only_on_unreadable C B ctx K N pd X m : curve_laws C -> on C X = true -> ped_ok pd -> 0 < N -> Z.gcd K N = 1 ->
  log_verify C B ctx K N pd X m = Panic -> parse_int 10 (lm_z1 m) = None \/ parse_int 10 (lm_z3 m) = None.
Proof.
  intros L OX (Hn & Gs & Gt) HN GK. assert (M : 0 < N * N) by nia. assert (Mp : 0 < pe_n pd) by lia.
  destruct (parse_int 10 (lm_z1 m)) as [z1|] eqn:Z1; [|auto]. destruct (parse_int 10 (lm_z3 m)) as [z3|] eqn:Z3; [|auto].
  intro H. exfalso. revert H. unfold log_verify. rewrite Z1, Z3. cbn [deref obind].
  unfold rel_primeb. destruct (in_range0 (of_be (lm_S m)) (pe_n pd)); cbn [negb]; [|discriminate].
  destruct (Z.eqb_spec (Z.gcd (of_be (lm_S m)) (pe_n pd)) 1) as [GS|]; cbn [negb]; [|discriminate].
  destruct (in_range0 (of_be (lm_A m)) (N * N)); cbn [negb]; [|discriminate].
  destruct (Z.gcd (of_be (lm_A m)) N =? 1); cbn [negb]; [|discriminate].
  destruct (in_range0 (of_be (lm_D m)) (pe_n pd)); cbn [negb]; [|discriminate].
  destruct (Z.gcd (of_be (lm_D m)) (pe_n pd) =? 1); cbn [negb]; [|discriminate].
  destruct (in_range0 (of_be (lm_z2 m)) N); cbn [negb]; [|discriminate].
  destruct (Z.gcd (of_be (lm_z2 m)) N =? 1); cbn [negb]; [|discriminate].
  destruct (new_point C _ _) as [Y|]; [|discriminate].
  match goal with |- context [in_range ?x _ _] => set (e := x) end.
  destruct (in_range e _ _); cbn [negb]; [|discriminate].
  destruct (cf_bound (c_n C) <? Z.abs z1); [discriminate|].
  rewrite (pt_smul_eq C L) by exact OX. cbn [deref obind].
  destruct (pt_add C _ Y) as [YX|]; [|discriminate]. rewrite (smul_g_gmul C L). cbn [deref obind].
  match goal with |- context [if negb ?b then _ else _] => destruct b; cbn [negb]; [|discriminate] end.
  destruct (expm_unit K e (N * N) M (gcd_sq _ _ GK)) as [Ke ->]. cbn [deref obind].
  rewrite (expm_nonneg _ N) by lia. cbn [deref obind].
  destruct (expm_unit (1 + N) z1 (N * N) M (one_plus_gcd N HN)) as [gz ->]. cbn [deref obind].
  match goal with |- context [if negb ?b then _ else _] => destruct b; cbn [negb]; [|discriminate] end.
  destruct (expm_unit (pe_s pd) z1 (pe_n pd) Mp Gs) as [? ->]. cbn [deref obind].
  destruct (expm_unit (pe_t pd) z3 (pe_n pd) Mp Gt) as [? ->]. cbn [deref obind].
  destruct (expm_unit (of_be (lm_S m)) e (pe_n pd) Mp GS) as [? ->]. cbn [deref obind]. discriminate.
Qed.
