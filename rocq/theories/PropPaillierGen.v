(** PropPaillierGen.v -- property C49: generated Paillier keys. *)
From Verif Require Import Base BigInt NumTh Euler Carmichael RangeProofs RangeThm Random AliceUtils Jacobi PropPrimes Paillier PropPaillier SafePrime PropSafePrime Factor PropFactor PaillierGen PropRingPed.
From Coq Require Import Znumtheory.

Lemma odd_prime p : prime p -> p <> 2 -> Z.odd p = true.
Proof.
  intros P N. destruct (Z.odd p) eqn:O; [reflexivity|]. rewrite <- Z.negb_even in O. apply negb_false_iff, Z.even_spec in O.
  assert (D : (2 | p)) by (destruct O as [a E]; exists a; lia). pose proof (prime_ge_2 _ P). destruct (prime_divisors p P 2 D) as [A|[A|[A|A]]]; lia.
Qed.
Lemma bitlen_log z k : 0 < z -> bitlen z = k <-> 2 ^ (k - 1) <= z < 2 ^ k /\ 1 <= k.
Proof.
  intro H. split.
  - intro E. split; [now apply bitlen_eq|]. subst k. pose proof (bitlen_pos z ltac:(lia)). lia.
  - intros [R K]. unfold bitlen. destruct (Z.eqb_spec z 0); [lia|]. rewrite Z.abs_eq by lia. enough (Z.log2 z = k - 1) by lia. apply Z.log2_unique; [lia|]. replace (Z.succ (k - 1)) with k by lia. exact R.
Qed.

(** a pair delivered by the concurrent search for half the modulus size *)
Definition from_search (h : Z) (a : Z * Z) : Prop := exists p' q', safe_pair h (fst a, p') /\ safe_pair h (snd a, q').
(** the key of GenerateKeyPair: two different safe primes of the right size that are far apart, N = PQ with 2 (bits/2) bits, lambda the lcm *)
Theorem C49_generate mbl attempts k : 12 <= mbl -> Forall (from_search (mbl / 2)) attempts -> gen_key mbl attempts = Some k ->
  good_primes (pk_p k) (pk_q k) /\ k = key_of (pk_p k) (pk_q k) /\ (exists p', prime p' /\ pk_p k = 2 * p' + 1) /\ (exists q', prime q' /\ pk_q k = 2 * q' + 1) /\
  bitlen (pk_n k) = 2 * (mbl / 2) /\ 2 ^ (mbl / 2 - 4) <= Z.abs (pk_p k - pk_q k) /\
  (forall m, (pk_p k - 1 | m) -> (pk_q k - 1 | m) -> (pk_lambda k | m)).
Proof.
  intros Hm F. assert (H6 : 6 <= mbl / 2) by (apply Z.div_le_lower_bound; lia). set (h := mbl / 2) in *.
  induction F as [|[P Q] l [p' [q' [SP SQ]]] F IH]; [discriminate|]. cbn [gen_key]. fold h. destruct (Z.leb_spec (h - 3) (bitlen (P - Q))) as [D|D]; [|exact IH].
  intro E. assert (k = key_of P Q) by congruence. subst k. clear E IH. cbn [fst snd] in *. cbn [pk_p pk_q pk_n pk_lambda key_of]. clearbody h.
  destruct SP as [PP [Pp [EP [BP [Bp TP]]]]]. destruct SQ as [PQ [Pq [EQ [BQ [Bq TQ]]]]]. cbn [fst snd] in *.
  pose proof (prime_ge_2 _ Pp). pose proof (prime_ge_2 _ Pq).
  assert (NE : P <> Q). { intro E. replace (P - Q) with 0 in D by lia. change (bitlen 0) with 0 in D. lia. }
  apply bitlen_log in BP; [|lia]. apply bitlen_log in BQ; [|lia].
  assert (GP : good_primes P Q).
  { constructor; [exact PP|exact PQ|exact NE|apply odd_prime; [exact PP|lia]|apply odd_prime; [exact PQ|lia]|]. exists (h - 1). replace (h - 1 + 1) with h by lia. tauto. }
  split; [exact GP|]. split; [reflexivity|]. split; [now exists p'|]. split; [now exists q'|]. split; [|split].
  - apply bitlen_log; [nia|]. split; [|lia]. assert (W : 0 < 2 ^ (h - 2)) by (apply Z.pow_pos_nonneg; lia).
    assert (E1 : 2 ^ (2 * h) = 16 * (2 ^ (h - 2) * 2 ^ (h - 2))) by (rewrite <- Z.pow_add_r by lia; change 16 with (2 ^ 4); rewrite <- Z.pow_add_r by lia; f_equal; lia).
    assert (E2 : 2 ^ (2 * h - 1) = 8 * (2 ^ (h - 2) * 2 ^ (h - 2))) by (rewrite <- Z.pow_add_r by lia; change 8 with (2 ^ 3); rewrite <- Z.pow_add_r by lia; f_equal; lia).
    assert (E3 : 2 ^ h = 4 * 2 ^ (h - 2)) by (change 4 with (2 ^ 2); rewrite <- Z.pow_add_r by lia; f_equal; lia).
    rewrite E1, E2. rewrite E3 in *. set (w := 2 ^ (h - 2)) in *. clearbody w. clear - W BP BQ TP TQ. nia.
  - assert (A : 0 < Z.abs (P - Q)) by lia. assert (BA : bitlen (P - Q) = bitlen (Z.abs (P - Q))) by (unfold bitlen; rewrite Z.abs_involutive; destruct (Z.eqb_spec (P - Q) 0), (Z.eqb_spec (Z.abs (P - Q)) 0); lia || reflexivity).
    pose proof (bitlen_pow _ A) as BL. rewrite <- BA in BL. assert (2 ^ (h - 4) <= 2 ^ (bitlen (P - Q) - 1)) by (apply Z.pow_le_mono_r; lia). lia.
  - intros m D1 D2. change ((P - 1) * (Q - 1) / Z.gcd (P - 1) (Q - 1)) with (lcm_of (P - 1) (Q - 1)).
    destruct (C39_lcm (P - 1) (Q - 1)) as [L _]. destruct (L ltac:(lia)) as [lc [El [_ [_ [_ U]]]]].
    assert (lcm_of (P - 1) (Q - 1) = lc).
    { unfold u_lcm in El. destruct (Z.leb_spec (P - 1) 0); [lia|]. destruct (Z.leb_spec (Q - 1) 0); [lia|]. unfold lcm_of.
      assert (G : (Z.gcd (P - 1) (Q - 1) | P - 1)) by apply Z.gcd_divide_l. assert (G0 : Z.gcd (P - 1) (Q - 1) <> 0) by (intro X; apply Z.gcd_eq_0 in X; lia).
      assert (EE : lc = (P - 1) / u_gcd (P - 1) (Q - 1) * (Q - 1)) by congruence. rewrite EE. unfold u_gcd. set (g := Z.gcd (P - 1) (Q - 1)) in *. clearbody g.
      destruct G as [c Hc]. rewrite Hc. rewrite Z.div_mul by exact G0. replace (c * g * (Q - 1)) with (c * (Q - 1) * g) by ring. apply Z.div_mul. exact G0. }
    subst lc. now apply U.
Qed.
(** such a key encrypts and decrypts every message *)
Theorem C49_generate_usable mbl attempts k m x : 12 <= mbl -> Forall (from_search (mbl / 2)) attempts -> gen_key mbl attempts = Some k -> 0 <= m < pk_n k -> unit_draw (pk_n k) x ->
  exists c, pal_encrypt (pk_n k) m x = Some c /\ pal_decrypt (pk_n k) (pk_lambda k) c = Ret (Some m).
Proof.
  intros Hm F E Rm U. destruct (C49_generate _ _ _ Hm F E) as [GP [Ek _]]. rewrite Ek in *. cbn [pk_p pk_q key_of] in GP. revert Rm U. cbn [pk_p pk_q key_of]. apply (C26_decrypt_encrypt _ _ GP).
Qed.
(** an odd size is silently rounded down *)
Theorem C49_odd_size_refuted mbl attempts k : 12 <= mbl -> Z.odd mbl = true -> Forall (from_search (mbl / 2)) attempts -> gen_key mbl attempts = Some k -> bitlen (pk_n k) = mbl - 1.
Proof.
  intros Hm O F E. destruct (C49_generate _ _ _ Hm F E) as [_ [_ [_ [_ [B _]]]]]. rewrite B. apply Z.odd_spec in O. destruct O as [c ->].
  replace (2 * c + 1) with (1 + c * 2) by ring. rewrite Z.div_add by lia. change (1 / 2) with 0. lia.
Qed.
(** a run for 18 bits: the pair (479, 503) is too close (difference 24, five bits), the pair (467, 503) is taken *)
Theorem C49_generate_ex : Forall (from_search (18 / 2)) [(479, 503); (467, 503)] /\ gen_key 18 [(479, 503); (467, 503)] = Some (key_of 467 503) /\ pk_n (key_of 467 503) = 234901.
Proof.
  assert (H : forall p, prime (2 * p + 1) -> prime p -> 2 ^ 8 <= 2 * p + 1 < 2 ^ 9 -> 2 ^ 7 <= p < 2 ^ 8 -> 384 <= 2 * p + 1 -> safe_pair 9 (2 * p + 1, p)).
  { intros p P1 P2 R1 R2 R3. unfold safe_pair. cbn [fst snd]. split; [exact P1|]. split; [exact P2|]. split; [reflexivity|]. split; [apply bitlen_log; [lia|split; [exact R1|lia]]|]. split; [apply bitlen_log; [lia|split; [exact R2|lia]]|exact R3]. }
  assert (P239 : safe_pair 9 (2 * 239 + 1, 239)) by (apply H; [apply small_prime; [lia|reflexivity]|apply small_prime; [lia|reflexivity]|cbn; lia|cbn; lia|lia]).
  assert (P251 : safe_pair 9 (2 * 251 + 1, 251)) by (apply H; [apply small_prime; [lia|reflexivity]|apply small_prime; [lia|reflexivity]|cbn; lia|cbn; lia|lia]).
  assert (P233 : safe_pair 9 (2 * 233 + 1, 233)) by (apply H; [apply small_prime; [lia|reflexivity]|apply small_prime; [lia|reflexivity]|cbn; lia|cbn; lia|lia]).
  split; [|split; reflexivity]. constructor; [now exists 239, 251|]. constructor; [now exists 233, 251|constructor].
Qed.

(** ** crypto/alice/paillier *)
Definition prime_attempt (a : Z * Z) : Prop := prime (fst a) /\ prime (snd a) /\ fst a <> 2 /\ snd a <> 2 /\ bitlen (fst a) = bitlen (snd a).
Lemma a_prime_pair_good attempts p q : Forall prime_attempt attempts -> a_prime_pair attempts = Some (p, q) -> good_primes p q.
Proof.
  intros F E. unfold a_prime_pair in E. apply find_some in E. destruct E as [I N]. cbn [fst snd] in N. apply negb_true_iff, Z.eqb_neq in N.
  assert (I' : In (p, q) attempts) by (rewrite <- (firstn_skipn 100 attempts); apply in_or_app; now left). rewrite Forall_forall in F. destruct (F _ I') as [P [Q [P2 [Q2 B]]]]. cbn [fst snd] in *.
  pose proof (prime_ge_2 _ P). pose proof (prime_ge_2 _ Q).
  constructor; [exact P|exact Q|exact N|now apply odd_prime|now apply odd_prime|]. exists (bitlen p - 1). replace (bitlen p - 1 + 1) with (bitlen p) by lia.
  split; [apply bitlen_pow; lia|]. rewrite B. apply bitlen_pow. lia.
Qed.
Lemma u_lcm_key p q : good_primes p q -> u_lcm (p - 1) (q - 1) = Some (pk_lambda (key_of p q)).
Proof.
  intros [P Q _ _ _ _]. pose proof (prime_ge_2 _ P). pose proof (prime_ge_2 _ Q). unfold u_lcm. destruct (Z.leb_spec (p - 1) 0); [lia|]. destruct (Z.leb_spec (q - 1) 0); [lia|]. f_equal.
  cbn [pk_lambda key_of]. unfold u_gcd. assert (G : (Z.gcd (p - 1) (q - 1) | p - 1)) by apply Z.gcd_divide_l. assert (G0 : Z.gcd (p - 1) (q - 1) <> 0) by (intro X; apply Z.gcd_eq_0 in X; lia).
  set (g := Z.gcd (p - 1) (q - 1)) in *. clearbody g. destruct G as [c Hc]. rewrite Hc. rewrite Z.div_mul by exact G0. replace (c * g * (q - 1)) with (c * (q - 1) * g) by ring. symmetry. apply Z.div_mul. exact G0.
Qed.
(** the first pair of different primes of one size is taken: the coprimality retry never happens *)
Theorem C49_alice_first fuel a t p q : Forall prime_attempt a -> a_prime_pair a = Some (p, q) ->
  a_n_lambda (S fuel) (a :: t) = Some (p, q, p * q, pk_lambda (key_of p q), (p - 1) * (q - 1)).
Proof.
  intros F E. pose proof (a_prime_pair_good _ _ _ F E) as GP. cbn [a_n_lambda]. rewrite E. unfold rel_primeb. rewrite (good_gcd p q GP). cbn [Z.eqb Pos.eqb].
  rewrite (u_lcm_key p q GP). reflexivity.
Qed.
Lemma a_n_lambda_inv fuel attempts p q n l m : Forall (Forall prime_attempt) attempts -> a_n_lambda fuel attempts = Some (p, q, n, l, m) ->
  good_primes p q /\ n = p * q /\ l = pk_lambda (key_of p q) /\ m = (p - 1) * (q - 1).
Proof.
  destruct fuel as [|fuel]; [discriminate|]. destruct attempts as [|a t]; [discriminate|]. intros F E. inversion F as [|? ? Fa _]; subst.
  destruct (a_prime_pair a) as [[p0 q0]|] eqn:PP; [|cbn [a_n_lambda] in E; rewrite PP in E; discriminate].
  rewrite (C49_alice_first fuel a t p0 q0 Fa PP) in E. pose proof (a_prime_pair_good _ _ _ Fa PP) as GP.
  assert (p0 = p) by congruence. assert (q0 = q) by congruence. subst p0 q0. split; [exact GP|]. split; [congruence|]. split; congruence.
Qed.
Section Alice.
  Variable B : bytes -> bytes.
  (** what is accepted as a public key *)
  Theorem C49_to_pubkey m r : to_pubkey B m = Some r <->
    let n := of_be (fz_N (pm_proof m)) in let g := of_be (pm_g m) in
    r = (n, g) /\ fz_verify B (pm_proof m) = true /\ 2 <= g < n * n /\ Z.gcd g n = 1.
  Proof.
    unfold to_pubkey. cbv zeta. set (n := of_be (fz_N (pm_proof m))). set (g := of_be (pm_g m)).
    destruct (fz_verify B (pm_proof m)) eqn:V; cbn [negb]; [|split; [discriminate|intros [_ [X _]]; discriminate]].
    assert (Hn : 0 < n). { apply C48_verify in V. fold n in V. lia. }
    destruct (Z.leb_spec n 0); [lia|]. destruct (in_range g 2 (n * n)) eqn:R; cbn [negb].
    2:{ split; [discriminate|]. intros [_ [_ [X _]]]. rewrite in_range_true in R by exact X. discriminate. }
    apply in_range_inv in R. unfold rel_primeb. destruct (Z.eqb_spec (Z.gcd g (n * n)) 1) as [G|G]; cbn [negb].
    - split; [intro E; assert (r = (n, g)) by congruence; split; [assumption|]; split; [reflexivity|]; split; [exact R|now apply gcd_sq_inv]|intros [-> _]; reflexivity].
    - split; [discriminate|]. intros [_ [_ [_ X]]]. exfalso. apply G. now apply gcd_sq.
  Qed.
  Local Opaque fz_new fz_verify a_n_lambda a_prime_pair bitlen of_be to_be.
  (** a generated key: the right numbers, a verifying proof, and correct decryption *)
  Theorem C49_alice attempts tries k : Forall (Forall prime_attempt) attempts -> a_new B attempts tries = Some k ->
    good_primes (ak_p k) (ak_q k) /\ ak_n k = ak_p k * ak_q k /\ ak_g k = 1 + ak_n k /\ ak_phi k = (ak_p k - 1) * (ak_q k - 1) /\ 2048 <= bitlen (ak_n k) /\
    (forall m r, 0 <= m < ak_n k -> unit_draw (ak_n k) r -> exists c, a_encrypt (ak_n k) (ak_g k) (to_be m) r = Some c /\ a_decrypt (ak_n k) (ak_lambda k) (ak_mu k) c = Some (to_be m)).
  Proof.
    intros F E. unfold a_new in E. destruct (a_n_lambda 100 attempts) as [[[[[p q] n] l] phi]|] eqn:NL; [|discriminate].
    destruct (a_n_lambda_inv _ _ _ _ _ _ _ F NL) as [GP [-> [-> ->]]]. clear NL.
    destruct (C26_alice p q GP) as [mu [Eg [Dec _]]]. change (pk_n (key_of p q)) with (p * q) in *. rewrite Eg in E.
    destruct (fz_new B [p; q] (p * q) tries) as [msg|] eqn:FZ; [|discriminate].
    assert (N1 : 1 < p * q) by (pose proof (key_N p q GP) as X; exact X).
    assert (N0 : 0 <= p * q) by lia. destruct (C48_new B _ _ _ _ N0 FZ) as [V [EN BL]].
    destruct (to_pubkey B {| pm_proof := msg; pm_g := to_be (1 + p * q) |}) as [[n' g']|] eqn:TP; [|discriminate].
    apply C49_to_pubkey in TP. cbv zeta in TP. cbn [pm_proof pm_g] in TP. rewrite EN in TP. rewrite of_be_to_be_nonneg in TP by lia. destruct TP as [TP _].
    assert (n' = p * q) by congruence. assert (g' = 1 + p * q) by congruence. subst n' g'.
    assert (k = {| ak_n := p * q; ak_g := 1 + p * q; ak_p := p; ak_q := q; ak_lambda := pk_lambda (key_of p q); ak_phi := (p - 1) * (q - 1); ak_mu := mu |}) by congruence. subst k.
    cbn [ak_n ak_g ak_p ak_q ak_lambda ak_phi ak_mu]. split; [exact GP|]. split; [reflexivity|]. split; [reflexivity|]. split; [reflexivity|]. split; [exact BL|exact Dec].
  Qed.
  (** the N-th root exponent of a generated key exists and undoes raising to the N modulo N *)
  Theorem C49_nth_root attempts tries k : Forall (Forall prime_attempt) attempts -> a_new B attempts tries = Some k ->
    exists d, nth_root k = Some (Some d) /\ 0 <= d /\ forall x, Z.gcd x (ak_n k) = 1 -> cong (ak_n k) ((x ^ ak_n k) ^ d) x.
  Proof.
    intros F E. destruct (C49_alice _ _ _ F E) as [GP [En _]]. unfold nth_root. rewrite C39_euler_product. pose proof GP as [P Q NE _ _ _]. pose proof (prime_ge_2 _ P). pose proof (prime_ge_2 _ Q).
    cbn [forallb fold_right]. destruct (Z.ltb_spec 1 (ak_p k)); [|lia]. destruct (Z.ltb_spec 1 (ak_q k)); [|lia]. cbn [andb].
    pose proof (good_gcd _ _ GP) as G. rewrite <- En in G. rewrite Z.mul_1_r. set (p := ak_p k) in *. set (q := ak_q k) in *. set (n := ak_n k) in *. clearbody p q n. clear E F.
    assert (N0 : 1 < n) by nia. destruct (Z.eq_dec ((p - 1) * (q - 1)) 1) as [E1|E1].
    { assert (p = 2) by nia. assert (q = 2) by nia. congruence. }
    destruct (invm_some n ((p - 1) * (q - 1))) as [d [Ed [Rd C]]]; [nia|exact G|]. exists d. rewrite Ed. split; [reflexivity|]. split; [lia|]. intros x Gx.
    destruct C as [c Hc]. assert (D1 : 0 < d). { destruct (Z.eq_dec d 0) as [->|]; [|lia]. exfalso. assert (c * ((p - 1) * (q - 1)) = -1) by lia. assert (c = -1 \/ c <= -2 \/ 0 <= c) by lia. nia. }
    assert (C0 : 0 <= c) by nia.
    rewrite <- Z.pow_mul_r by lia. replace (n * d) with ((p - 1) * (q - 1) * c + 1) by lia. rewrite Z.pow_add_r, Z.pow_1_r by nia. rewrite Z.pow_mul_r by nia.
    rewrite En in *. pose proof (euler_pq p q x P Q NE Gx) as EU. rewrite (cong_pow _ _ _ c EU). rewrite Z.pow_1_l by lia. now rewrite Z.mul_1_l.
  Qed.
  (** a received g is not checked further: g = n^2 - 1 is accepted with any verifying proof, and then 0 and 2 have the same encryptions *)
  Theorem C49_bad_g_refuted proof r : let n := of_be (fz_N proof) in 2 < n -> fz_verify B proof = true ->
    to_pubkey B {| pm_proof := proof; pm_g := to_be (n * n - 1) |} = Some (n, n * n - 1) /\
    a_encrypt n (n * n - 1) (to_be 0) r = a_encrypt n (n * n - 1) (to_be 2) r /\ a_encrypt n (n * n - 1) (to_be 0) r <> None.
  Proof.
    intros n Hn V. assert (N2 : 3 < n * n) by nia.
    split; [|].
    - apply C49_to_pubkey. cbv zeta. cbn [pm_proof pm_g]. fold n. rewrite of_be_to_be_nonneg by lia. split; [reflexivity|]. split; [exact V|]. split; [lia|].
      rewrite (gcd_cong n _ (-1)); [|exists n; ring]. change (-1) with (- (1)). rewrite Z.gcd_opp_l. apply Z.gcd_1_l.
    - unfold a_encrypt. change (of_be (to_be 0)) with 0. change (of_be (to_be 2)) with 2. destruct (Z.leb_spec n 0); [lia|]. destruct (Z.leb_spec n 2); [lia|].
      split; [|discriminate]. do 2 f_equal. f_equal. f_equal. rewrite !powm_eq by lia. apply cong_eq; [lia|]. exists (2 - n * n). rewrite Z.pow_0_r, Z.pow_2_r. ring.
  Qed.
End Alice.
