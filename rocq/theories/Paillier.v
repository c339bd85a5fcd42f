(** Paillier.v -- crypto/paillier/paillier.go and crypto/alice/paillier/paillier.go.

    Key generation (safe-prime search) is modelled only by the arithmetic done on the two primes it returns;
    random values are arguments. *)
From Verif Require Import Base BigInt NumTh Carmichael.
From Coq Require Import Znumtheory Wf_Z.

(** ** crypto/paillier *)
(** paillier.go 35-43, 98-108: LambdaN = (P-1)(Q-1) / gcd(P-1, Q-1) *)
Record pkey := { pk_p : Z; pk_q : Z; pk_n : Z; pk_phi : Z; pk_lambda : Z }.
Definition key_of (p q : Z) : pkey :=
  {| pk_p := p; pk_q := q; pk_n := p * q; pk_phi := (p - 1) * (q - 1);
     pk_lambda := (p - 1) * (q - 1) / Z.gcd (p - 1) (q - 1) |}.

(** paillier.go 115-128 EncryptAndReturnRandomness with the drawn x; [None] is ErrMessageTooLong *)
Definition pal_encrypt (N m x : Z) : option Z :=
  if (m <? 0) || (N <=? m) then None
  else Some ((powm (N + 1) m (N * N) * powm x N (N * N)) mod (N * N)).
(** paillier.go 135-145 HomoMult *)
Definition pal_mult (N m c : Z) : option Z :=
  if (m <? 0) || (N <=? m) then None
  else if (c <? 0) || (N * N <=? c) then None
  else Some (powm c m (N * N)).
(** paillier.go 147-157 HomoAdd *)
Definition pal_add (N c1 c2 : Z) : option Z :=
  if (c1 <? 0) || (N * N <=? c1) then None
  else if (c2 <? 0) || (N * N <=? c2) then None
  else Some ((c1 * c2) mod (N * N)).
(** paillier.go 249-252 L *)
Definition Lfun (u N : Z) : Z := (u - 1) / N.
(** paillier.go 175-193 Decrypt: error for out-of-range or non-coprime c; a nil inverse panics in Mul *)
Definition pal_decrypt (N lambda c : Z) : outcome (option Z) :=
  if (c <? 0) || (N * N <=? c) then Ret None
  else if 1 <? Z.gcd c (N * N) then Ret None
  else let Lc := Lfun (powm c lambda (N * N)) N in
       let Lg := Lfun (powm (N + 1) lambda (N * N)) N in
       match invm Lg N with
       | Some inv => Ret (Some ((Lc * inv) mod N))
       | None => Panic
       end.

(** ** crypto/alice/paillier *)
(** alice paillier.go 292-303 lFunction *)
Definition a_L (x n : Z) : option Z := if n <=? 0 then None else if x <=? 0 then None else Some ((x - 1) / n).
(** alice paillier.go 257-268 isCorrectCiphertext *)
Definition a_correct (c n : Z) : bool := (1 <? n * n) && (1 <=? c) && (c <? n * n) && (Z.gcd c n =? 1).
(** alice paillier.go 270-290 getGAndMuWithSpecialG: g = 1+n; the loop retries the same computation, so it
    succeeds at once or never *)
Definition a_g_mu (lambda n : Z) : option (Z * Z) :=
  match a_L (powm (1 + n) lambda (n * n)) n with
  | Some u => match invm u n with Some mu => Some (1 + n, mu) | None => None end
  | None => None
  end.
(** alice paillier.go 68-97 Encrypt / EncryptWithOutputSalt with the drawn salt r *)
Definition a_encrypt (n g : Z) (mb : bytes) (r : Z) : option bytes :=
  let m := of_be mb in
  if n <=? m then None
  else if n <=? 2 then None
  else Some (to_be ((powm g m (n * n) * powm r n (n * n)) mod (n * n))).
(** alice paillier.go 182-202 Decrypt *)
Definition a_decrypt (n lambda mu : Z) (cb : bytes) : option bytes :=
  let c := of_be cb in
  if a_correct c n then
    match a_L (powm c lambda (n * n)) n with
    | Some l => Some (to_be ((l * mu) mod n))
    | None => None
    end
  else None.
(** alice paillier.go 311-335 Add *)
Definition a_add (n : Z) (c1b c2b : bytes) (r : Z) : option bytes :=
  let c1 := of_be c1b in let c2 := of_be c2b in
  if a_correct c1 n && a_correct c2 n then
    if n <=? 2 then None
    else Some (to_be (((c1 * c2) mod (n * n) * powm r n (n * n)) mod (n * n)))
  else None.
(** alice paillier.go 343-361 MulConst *)
Definition a_mulconst (n : Z) (cb : bytes) (s : Z) (r : Z) : option bytes :=
  let c := of_be cb in
  if a_correct c n then
    if n <=? 2 then None
    else Some (to_be ((powm c (s mod n) (n * n) * powm r n (n * n)) mod (n * n)))
  else None.

(** ** Specification *)
(** two different odd primes of the same bit length, as key generation delivers them *)
Record good_primes (p q : Z) : Prop := {
  gp_p : prime p; gp_q : prime q; gp_ne : p <> q; gp_op : Z.odd p = true; gp_oq : Z.odd q = true;
  gp_len : exists k, 2 ^ k <= p < 2 ^ (k + 1) /\ 2 ^ k <= q < 2 ^ (k + 1) }.
(** what the random sampler delivers *)
Definition unit_draw (N x : Z) : Prop := 1 <= x < N /\ Z.gcd x N = 1.
(** c is an encryption of m: c = (1+N)^m x^N mod N^2 for some unit x *)
Definition encrypts (N m c : Z) : Prop :=
  0 <= c < N * N /\ exists x, Z.gcd x N = 1 /\ cong (N * N) c ((1 + N * m) * x ^ N).

Lemma Some_inj {A} (a b : A) : Some a = Some b -> a = b.
Proof. congruence. Qed.
Lemma gcd_sq c N : Z.gcd c N = 1 -> Z.gcd c (N * N) = 1.
Proof. intro H. apply Zgcd_1_rel_prime in H. apply Zgcd_1_rel_prime. apply rel_prime_mult; assumption. Qed.
Lemma gcd_sq_inv c N : Z.gcd c (N * N) = 1 -> Z.gcd c N = 1.
Proof. apply gcd_factor_l. Qed.

Lemma good_gcd_one p q : good_primes p q -> p < q -> Z.gcd (p * q) ((p - 1) * (q - 1)) = 1.
Proof.
  intros [Pp Pq Ne Op Oq (k & Hp & Hq)] Hlt.
  assert (2 <= p) by (destruct Pp; lia). assert (2 <= q) by (destruct Pq; lia).
  assert (q < 2 * p).
  { destruct (Z_lt_le_dec k 0) as [L|L].
    - assert (2 ^ (k + 1) <= 1) by (destruct (Z.eq_dec k (-1)) as [->|]; [cbn; lia|rewrite Z.pow_neg_r by lia; lia]). lia.
    - rewrite Z.pow_add_r in Hq, Hp by lia. lia. }
  apply Zgcd_1_rel_prime.
  assert (A : rel_prime p (q - 1)).
  { apply prime_rel_prime; auto. intros [c Hc]. assert (c = 1) by nia. subst c.
    rewrite <- Z.negb_even in Op, Oq. replace q with (Z.succ p) in Oq by lia. rewrite Z.even_succ in Oq.
    rewrite <- Z.negb_even in Oq. destruct (Z.even p); discriminate. }
  assert (B : rel_prime p (p - 1)) by (apply bezout_rel_prime; apply (Bezout_intro _ _ _ 1 (-1)); lia).
  assert (D : rel_prime q (q - 1)) by (apply bezout_rel_prime; apply (Bezout_intro _ _ _ 1 (-1)); lia).
  assert (E : rel_prime q (p - 1)).
  { apply prime_rel_prime; auto. intros [c Hc]. assert (c <= 0 \/ 1 <= c) as [|] by lia; nia. }
  apply rel_prime_mult; apply rel_prime_sym; apply rel_prime_mult; apply rel_prime_sym; assumption.
Qed.
Lemma good_gcd p q : good_primes p q -> Z.gcd (p * q) ((p - 1) * (q - 1)) = 1.
Proof.
  intro H. destruct (Z_lt_le_dec p q) as [L|L]; [apply good_gcd_one; auto|].
  rewrite (Z.mul_comm p), (Z.mul_comm (p - 1)). apply good_gcd_one.
  - destruct H as [? ? ? ? ? (k & ?)]. constructor; auto. exists k. tauto.
  - destruct H. lia.
Qed.

Section Gen.
  Variable N : Z.
  Hypothesis key_N : 1 < N.
  Lemma key_N2' : 0 < N * N. Proof. nia. Qed.
  Lemma lin_pow M m l : 0 <= l -> cong (M * M) ((1 + M * m) ^ l) (1 + m * l * M).
  Proof.
    revert l. apply natlike_ind; [rewrite Z.pow_0_r, Z.mul_0_r, Z.mul_0_l; reflexivity|].
    intros l Hl IH. rewrite Z.pow_succ_r by lia. rewrite IH. exists (m * m * l). unfold Z.succ. ring.
  Qed.
  Lemma encrypts_unit m c : encrypts N m c -> Z.gcd c N = 1.
  Proof.
    intros (_ & x & Gx & E). pose proof key_N. rewrite (gcd_cong N c (x ^ N)).
    - apply gcd_pow_1; [lia|auto].
    - apply (cong_div (N * N) N) in E; [|exists N; ring]. rewrite E. exists (m * x ^ N). ring.
  Qed.
  Lemma pal_encrypt_encrypts m x c : unit_draw N x -> pal_encrypt N m x = Some c -> 0 <= m < N /\ encrypts N m c.
  Proof.
    intros [Hx Gx] H. pose proof key_N as HN. pose proof key_N2' as HN2. unfold pal_encrypt in H.
    destruct (Z.ltb_spec m 0); [discriminate|]. destruct (Z.leb_spec N m); [discriminate|]. change (false || false) with false in H. cbv iota in H.
    apply Some_inj in H; subst. split; [lia|]. split; [apply Z.mod_pos_bound; exact HN2|]. exists x. split; auto.
    rewrite cong_mod by exact HN2. rewrite !powm_eq by (assumption || lia). rewrite !cong_mod by exact HN2.
        rewrite (Z.add_comm N 1). rewrite one_plus_pow by lia. rewrite (Z.mul_comm m N). reflexivity.
  Qed.
  Lemma pal_add_encrypts m1 m2 c1 c2 c : encrypts N m1 c1 -> encrypts N m2 c2 -> pal_add N c1 c2 = Some c -> encrypts N (m1 + m2) c.
  Proof.
    intros (H1 & x & Gx & E1) (H2 & y & Gy & E2) H. pose proof key_N as HN. pose proof key_N2' as HN2. unfold pal_add in H.
    destruct ((c1 <? 0) || (N * N <=? c1)); [discriminate|]. destruct ((c2 <? 0) || (N * N <=? c2)); [discriminate|].
    apply Some_inj in H; subst. split; [apply Z.mod_pos_bound; exact HN2|]. exists (x * y). split; [apply gcd_mul_1; auto|].
    rewrite cong_mod by exact HN2. rewrite E1, E2. rewrite Z.pow_mul_l. exists (m1 * m2 * x ^ N * y ^ N). ring.
  Qed.
  Lemma pal_mult_encrypts m k c c' : encrypts N m c -> pal_mult N k c = Some c' -> encrypts N (m * k) c'.
  Proof.
    intros (H1 & x & Gx & E1) H. pose proof key_N as HN. pose proof key_N2' as HN2. unfold pal_mult in H.
    destruct (Z.ltb_spec k 0); [discriminate|]. destruct (Z.leb_spec N k); [discriminate|]. change (false || false) with false in H. cbv iota in H.
    destruct ((c <? 0) || (N * N <=? c)); [discriminate|].
    apply Some_inj in H; subst. split; [apply Z.mod_pos_bound; exact HN2|]. exists (x ^ k). split; [apply gcd_pow_1; auto|].
    rewrite powm_eq by (assumption || lia). rewrite cong_mod by exact HN2. rewrite (cong_pow _ _ _ k E1). rewrite Z.pow_mul_l.
    rewrite <- !Z.pow_mul_r by lia. rewrite lin_pow by lia. rewrite (Z.mul_comm N k). rewrite (Z.mul_comm N (m * k)). reflexivity.
  Qed.
  Lemma a_correct_encrypts m c : encrypts N m c -> a_correct c N = true.
  Proof.
    intro E. pose proof key_N as HN. pose proof key_N2' as HN2. pose proof (encrypts_unit m c E) as G. destruct E as (Hc & _).
    assert (c <> 0) by (intros ->; rewrite Z.gcd_0_l, Z.abs_eq in G; lia).
    unfold a_correct. rewrite G. repeat rewrite andb_true_iff. repeat split; try reflexivity; [apply Z.ltb_lt|apply Z.leb_le|apply Z.ltb_lt]; nia.
  Qed.
  Lemma a_encrypt_encrypts mb r cb : unit_draw N r -> a_encrypt N (1 + N) mb r = Some cb ->
    0 <= of_be mb < N /\ exists c, cb = to_be c /\ encrypts N (of_be mb) c.
  Proof.
    intros [Hx Gx] H. pose proof key_N as HN. pose proof key_N2' as HN2. unfold a_encrypt in H. pose proof (of_be_range mb).
    destruct (Z.leb_spec N (of_be mb)); [discriminate|]. destruct (Z.leb_spec N 2); [discriminate|].
    split; [lia|]. apply Some_inj in H; subst. eexists. split; [reflexivity|]. split; [apply Z.mod_pos_bound; exact HN2|]. exists r. split; auto.
    rewrite cong_mod by exact HN2. rewrite !powm_eq by (assumption || lia). rewrite !cong_mod by exact HN2.
        rewrite one_plus_pow by lia. rewrite (Z.mul_comm (of_be mb) N). reflexivity.
  Qed.
  Lemma a_add_encrypts m1 m2 c1 c2 r cb : unit_draw N r -> encrypts N m1 c1 -> encrypts N m2 c2 ->
    a_add N (to_be c1) (to_be c2) r = Some cb -> exists c, cb = to_be c /\ encrypts N (m1 + m2) c.
  Proof.
    intros [Hr Gr] A B H. pose proof key_N as HN. pose proof key_N2' as HN2. pose proof A as (H1 & x & Gx & E1). pose proof B as (H2 & y & Gy & E2).
    unfold a_add in H. rewrite !of_be_to_be_nonneg in H by lia.
    rewrite (a_correct_encrypts _ _ A), (a_correct_encrypts _ _ B) in H. change (true && true) with true in H. cbv iota in H.
    destruct (Z.leb_spec N 2); [discriminate|]. apply Some_inj in H; subst. eexists. split; [reflexivity|].
    split; [apply Z.mod_pos_bound; exact HN2|]. exists (x * y * r). split; [repeat apply gcd_mul_1; auto|].
    rewrite !cong_mod by exact HN2. rewrite powm_eq by (assumption || lia). rewrite cong_mod by exact HN2. rewrite E1, E2. rewrite !Z.pow_mul_l.
    exists (m1 * m2 * x ^ N * y ^ N * r ^ N). ring.
  Qed.
  Lemma a_mulconst_encrypts m s c r cb : unit_draw N r -> encrypts N m c ->
    a_mulconst N (to_be c) s r = Some cb -> exists c', cb = to_be c' /\ encrypts N (m * (s mod N)) c'.
  Proof.
    intros [Hr Gr] A H. pose proof key_N as HN. pose proof key_N2' as HN2. pose proof A as (H1 & x & Gx & E1).
    assert (0 <= s mod N < N) by (apply Z.mod_pos_bound; lia).
    unfold a_mulconst in H. rewrite !of_be_to_be_nonneg in H by lia. rewrite (a_correct_encrypts _ _ A) in H.
    destruct (Z.leb_spec N 2); [discriminate|]. apply Some_inj in H; subst. eexists. split; [reflexivity|].
    split; [apply Z.mod_pos_bound; exact HN2|]. exists (x ^ (s mod N) * r). split; [apply gcd_mul_1; auto; apply gcd_pow_1; auto; lia|].
    rewrite cong_mod by exact HN2. rewrite !powm_eq by (assumption || lia). rewrite !cong_mod by exact HN2.
    rewrite (cong_pow _ _ _ (s mod N) E1). rewrite !Z.pow_mul_l. rewrite lin_pow by lia.
    rewrite <- !Z.pow_mul_r by lia. rewrite (Z.mul_comm N (s mod N)).
    rewrite (cong_mod (N * N) (r ^ N)) by exact HN2. exists 0. ring.
  Qed.
End Gen.

Section Key.
  Variables p q : Z.
  Hypothesis GP : good_primes p q.
  Notation N := (pk_n (key_of p q)).
  Notation lam := (pk_lambda (key_of p q)).

  Lemma key_p1 : 1 < p. Proof. destruct GP as [[]]; auto. Qed.
  Lemma key_q1 : 1 < q. Proof. destruct GP as [? []]; auto. Qed.
  Lemma key_N : 1 < N. Proof. cbn. pose proof key_p1. pose proof key_q1. nia. Qed.
  Lemma key_N2 : 0 < N * N. Proof. pose proof key_N. nia. Qed.
  Lemma key_lam : lam = lcm_of (p - 1) (q - 1). Proof. reflexivity. Qed.
  Lemma key_lam_pos : 0 < lam.
  Proof. rewrite key_lam. pose proof key_p1. pose proof key_q1. apply lcm_of_pos; lia. Qed.
  Lemma key_lam_gcd : Z.gcd lam N = 1.
  Proof.
    apply Zgcd_1_rel_prime. pose proof (good_gcd p q GP) as H. apply Zgcd_1_rel_prime in H.
    apply rel_prime_sym. apply rel_prime_sym in H. apply rel_prime_sym. eapply rel_prime_div; [exact H|].
    exists (Z.gcd (p - 1) (q - 1)). cbn. pose proof key_p1. pose proof key_q1.
    assert (G0 : Z.gcd (p - 1) (q - 1) <> 0) by (intro E; apply Z.gcd_eq_0_l in E; lia).
    apply Z_div_exact_full_2; auto.
    apply Z.mod_divide; auto. apply Z.divide_mul_l. apply Z.gcd_divide_l.
  Qed.

  (** c^lambda mod N^2 for an encryption of m *)
  Lemma enc_pow_lambda m c : encrypts N m c -> powm c lam (N * N) = (1 + m * lam * N) mod (N * N).
  Proof.
    intros (Hc & x & Gx & E). pose proof key_N as HN. pose proof key_lam_pos as HL.
    rewrite powm_eq by nia. apply cong_eq; [nia|].
    rewrite (cong_pow _ _ _ lam E). rewrite Z.pow_mul_l.
    assert (X : cong (N * N) ((x ^ N) ^ lam) 1).
    { rewrite <- Z.pow_mul_r by lia. destruct GP. apply (carmichael_sq p q x lam); auto; try lia.
      - rewrite key_lam. apply lcm_of_l; pose proof key_p1; pose proof key_q1; lia.
      - rewrite key_lam. apply lcm_of_r; pose proof key_p1; pose proof key_q1; lia. }
    rewrite X, Z.mul_1_r. apply lin_pow. lia.
  Qed.
  Lemma L_lin k : Lfun ((1 + k * N) mod (N * N)) N = k mod N.
  Proof.
    pose proof key_N as HN. assert (0 <= k mod N < N) by (apply Z.mod_pos_bound; lia).
    assert (E : (1 + k * N) mod (N * N) = 1 + (k mod N) * N).
    { symmetry. apply (Z.mod_unique _ _ (k / N)); [left; nia|]. rewrite (Z.div_mod k N) at 1 by lia. ring. }
    rewrite E. unfold Lfun. replace (1 + k mod N * N - 1) with (k mod N * N) by ring. apply Z.div_mul. lia.
  Qed.
  Lemma L_gamma : Lfun (powm (N + 1) lam (N * N)) N = lam mod N.
  Proof.
    pose proof key_N as HN. pose proof key_lam_pos as HL. rewrite <- (L_lin lam). f_equal.
    rewrite powm_eq by nia. apply cong_eq; [nia|]. rewrite (Z.add_comm N 1). apply one_plus_pow. lia.
  Qed.

  Lemma decrypt_lin m inv : cong N (lam * inv) 1 -> (m * lam mod N * inv) mod N = m mod N.
  Proof.
    intro I. pose proof key_N. apply cong_eq; [lia|]. rewrite cong_mod by lia.
    rewrite <- Z.mul_assoc. rewrite I. rewrite Z.mul_1_r. reflexivity.
  Qed.

  Theorem pal_decrypt_encrypts m c : encrypts N m c -> pal_decrypt N lam c = Ret (Some (m mod N)).
  Proof.
    intro E. pose proof key_N as HN. pose proof (encrypts_unit N key_N m c E) as G. pose proof E as (Hc & _).
    unfold pal_decrypt. destruct (Z.ltb_spec c 0); [lia|]. destruct (Z.leb_spec (N * N) c); [lia|]. change (false || false) with false. cbv iota.
    rewrite (gcd_sq c N G). cbn [Z.ltb Z.compare]. rewrite (enc_pow_lambda m c E), L_lin, L_gamma.
    destruct (invm_some (lam mod N) N) as (inv & Ei & _ & Ci); [lia| |].
    { rewrite (gcd_cong N _ lam) by (apply cong_mod; lia). apply key_lam_gcd. }
    change (1 <? 1) with false. cbn iota.
    rewrite Ei. f_equal. f_equal. apply decrypt_lin. rewrite cong_mod in Ci by lia. exact Ci.
  Qed.


  (** alice variant: the same key material gives the same mu *)
  Lemma a_keys : exists mu, a_g_mu lam N = Some (1 + N, mu) /\ cong N (lam * mu) 1.
  Proof.
    pose proof key_N as HN. pose proof key_N2 as HN2. pose proof key_lam_pos as HL. unfold a_g_mu, a_L. destruct (Z.leb_spec N 0); [lia|].
    assert (E : powm (1 + N) lam (N * N) = 1 + (lam mod N) * N).
    { rewrite powm_eq by (assumption || lia). assert (0 <= lam mod N < N) by (apply Z.mod_pos_bound; lia).
      apply (cong_small (N * N)); [apply Z.mod_pos_bound; exact HN2|nia|]. rewrite cong_mod by exact HN2. rewrite one_plus_pow by lia.
      exists (lam / N). rewrite (Z.div_mod lam N) at 1 by lia. ring. }
    rewrite E. assert (0 <= lam mod N < N) by (apply Z.mod_pos_bound; lia).
    destruct (Z.leb_spec (1 + lam mod N * N) 0); [nia|].
    replace (1 + lam mod N * N - 1) with (lam mod N * N) by ring. rewrite Z.div_mul by lia.
    destruct (invm_some (lam mod N) N) as (mu & -> & _ & Ci); [lia| |].
    { rewrite (gcd_cong N _ lam) by (apply cong_mod; lia). apply key_lam_gcd. }
    exists mu. split; auto. rewrite cong_mod in Ci by lia. exact Ci.
  Qed.
  Lemma a_decrypt_encrypts m c mu : cong N (lam * mu) 1 -> encrypts N m c -> a_decrypt N lam mu (to_be c) = Some (to_be (m mod N)).
  Proof.
    intros M E. pose proof key_N as HN. pose proof key_N2 as HN2. unfold a_decrypt. pose proof E as (Hc & _).
    rewrite of_be_to_be_nonneg by lia. rewrite (a_correct_encrypts N key_N m c E).
    rewrite (enc_pow_lambda m c E).
    assert (E2 : (1 + m * lam * N) mod (N * N) = 1 + (m * lam mod N) * N).
    { assert (0 <= (m * lam) mod N < N) by (apply Z.mod_pos_bound; lia).
      apply (cong_small (N * N)); [apply Z.mod_pos_bound; exact HN2|nia|]. rewrite cong_mod by exact HN2.
      exists (m * lam / N). rewrite (Z.div_mod (m * lam) N) at 1 by lia. ring. }
    rewrite E2. unfold a_L. assert (0 <= (m * lam) mod N < N) by (apply Z.mod_pos_bound; lia).
    destruct (Z.leb_spec N 0); [lia|]. destruct (Z.leb_spec (1 + m * lam mod N * N) 0); [nia|].
    replace (1 + m * lam mod N * N - 1) with (m * lam mod N * N) by ring. rewrite Z.div_mul by lia.
    rewrite decrypt_lin by exact M. reflexivity.
  Qed.
End Key.
