(** PropPaillier.v -- C26: Paillier decryption and homomorphic operations, both implementations.
    [good_primes] is what key generation provides (different odd primes of equal bit length); the key is
    [key_of p q]; [unit_draw N x] says what the random sampler returns (Random.v proves that it does). *)
From Verif Require Import Base BigInt NumTh Carmichael Paillier.
From Coq Require Import Znumtheory.

Section C26.
  Variables p q : Z.
  Hypothesis GP : good_primes p q.
  Notation N := (pk_n (key_of p q)).
  Notation lam := (pk_lambda (key_of p q)).

  (** crypto/paillier: every message in [0, N) encrypts, and decrypts to itself *)
  Theorem C26_decrypt_encrypt m x : 0 <= m < N -> unit_draw N x ->
    exists c, pal_encrypt N m x = Some c /\ pal_decrypt N lam c = Ret (Some m).
  Proof.
    intros Hm Hx. destruct (pal_encrypt N m x) as [c|] eqn:E.
    - exists c. split; [reflexivity|]. pose proof (pal_encrypt_encrypts N (key_N p q GP) m x c Hx E) as [_ K].
      rewrite (pal_decrypt_encrypts p q GP m c K). rewrite Z.mod_small by lia. reflexivity.
    - unfold pal_encrypt in E. destruct (Z.ltb_spec m 0); [lia|]. destruct (Z.leb_spec N m); [lia|]. discriminate.
  Qed.

  Lemma enc_ex m x : 0 <= m < N -> unit_draw N x -> exists c, pal_encrypt N m x = Some c /\ encrypts N m c.
  Proof.
    intros Hm Hx. destruct (C26_decrypt_encrypt m x Hm Hx) as (c & E & _). exists c. split; auto.
    apply (pal_encrypt_encrypts N (key_N p q GP) m x c Hx E).
  Qed.

  (** products of ciphertexts decrypt to sums mod N *)
  Theorem C26_homo_add m1 m2 x1 x2 c1 c2 : unit_draw N x1 -> unit_draw N x2 ->
    pal_encrypt N m1 x1 = Some c1 -> pal_encrypt N m2 x2 = Some c2 ->
    exists c, pal_add N c1 c2 = Some c /\ pal_decrypt N lam c = Ret (Some ((m1 + m2) mod N)).
  Proof.
    intros H1 H2 E1 E2. destruct (pal_encrypt_encrypts N (key_N p q GP) _ _ _ H1 E1) as [_ K1].
    destruct (pal_encrypt_encrypts N (key_N p q GP) _ _ _ H2 E2) as [_ K2].
    destruct (pal_add N c1 c2) as [c|] eqn:E.
    - exists c. split; [reflexivity|]. apply (pal_decrypt_encrypts p q GP). eapply pal_add_encrypts; eauto. apply (key_N p q GP).
    - unfold pal_add in E. destruct K1 as (R1 & _), K2 as (R2 & _).
      destruct (Z.ltb_spec c1 0); [lia|]. destruct (Z.leb_spec (N * N) c1); [lia|].
      destruct (Z.ltb_spec c2 0); [lia|]. destruct (Z.leb_spec (N * N) c2); [lia|]. discriminate.
  Qed.

  (** powers of ciphertexts decrypt to products mod N *)
  Theorem C26_homo_mult m k x c1 : unit_draw N x -> pal_encrypt N m x = Some c1 -> 0 <= k < N ->
    exists c, pal_mult N k c1 = Some c /\ pal_decrypt N lam c = Ret (Some ((m * k) mod N)).
  Proof.
    intros H1 E1 Hk. destruct (pal_encrypt_encrypts N (key_N p q GP) _ _ _ H1 E1) as [_ K1].
    destruct (pal_mult N k c1) as [c|] eqn:E.
    - exists c. split; [reflexivity|]. apply (pal_decrypt_encrypts p q GP). eapply pal_mult_encrypts; eauto. apply (key_N p q GP).
    - unfold pal_mult in E. destruct K1 as (R1 & _).
      destruct (Z.ltb_spec k 0); [lia|]. destruct (Z.leb_spec N k); [lia|].
      destruct (Z.ltb_spec c1 0); [lia|]. destruct (Z.leb_spec (N * N) c1); [lia|]. discriminate.
  Qed.

  (** out-of-range inputs give errors; decryption never panics with a generated key *)
  Theorem C26_range_errors :
    (forall m x, pal_encrypt N m x = None <-> ~ 0 <= m < N) /\
    (forall m c, pal_mult N m c = None <-> ~ (0 <= m < N /\ 0 <= c < N * N)) /\
    (forall c1 c2, pal_add N c1 c2 = None <-> ~ (0 <= c1 < N * N /\ 0 <= c2 < N * N)) /\
    (forall c, pal_decrypt N lam c = Ret None <-> ~ (0 <= c < N * N /\ Z.gcd c N = 1)) /\
    (forall c, pal_decrypt N lam c <> Panic).
  Proof.
    pose proof (key_N p q GP) as HN. repeat split.
    - unfold pal_encrypt. destruct (Z.ltb_spec m 0); [lia|]. destruct (Z.leb_spec N m); [lia|]. discriminate.
    - intro H. unfold pal_encrypt. destruct (Z.ltb_spec m 0); auto. destruct (Z.leb_spec N m); auto. lia.
    - unfold pal_mult. destruct (Z.ltb_spec m 0); [lia|]. destruct (Z.leb_spec N m); [lia|].
      destruct (Z.ltb_spec c 0); [lia|]. destruct (Z.leb_spec (N * N) c); [lia|]. discriminate.
    - intro H. unfold pal_mult. destruct (Z.ltb_spec m 0); auto. destruct (Z.leb_spec N m); auto.
      destruct (Z.ltb_spec c 0); auto. destruct (Z.leb_spec (N * N) c); auto. lia.
    - unfold pal_add. destruct (Z.ltb_spec c1 0); [lia|]. destruct (Z.leb_spec (N * N) c1); [lia|].
      destruct (Z.ltb_spec c2 0); [lia|]. destruct (Z.leb_spec (N * N) c2); [lia|]. discriminate.
    - intro H. unfold pal_add. destruct (Z.ltb_spec c1 0); auto. destruct (Z.leb_spec (N * N) c1); auto.
      destruct (Z.ltb_spec c2 0); auto. destruct (Z.leb_spec (N * N) c2); auto. lia.
    - unfold pal_decrypt. intros H [R G]. destruct (Z.ltb_spec c 0); [lia|]. destruct (Z.leb_spec (N * N) c); [lia|].
      change (false || false) with false in H. cbv iota in H. rewrite (gcd_sq c N G) in H. change (1 <? 1) with false in H. cbv iota zeta in H.
      destruct (invm _ N); discriminate.
    - intro H. unfold pal_decrypt. destruct (Z.ltb_spec c 0); auto. destruct (Z.leb_spec (N * N) c); auto.
      change (false || false) with false. cbv iota. destruct (Z.ltb_spec 1 (Z.gcd c (N * N))); auto. exfalso. apply H. split; [lia|].
      pose proof (Z.gcd_nonneg c (N * N)). assert (Z.gcd c (N * N) <> 0) by (intro E; apply Z.gcd_eq_0_r in E; nia).
      apply gcd_sq_inv. lia.
    - intros c H. unfold pal_decrypt in H. destruct ((c <? 0) || (N * N <=? c)); [discriminate|].
      destruct (1 <? Z.gcd c (N * N)); [discriminate|]. cbv zeta in H. rewrite (L_gamma p q GP) in H.
      destruct (invm_some (lam mod N) N) as (inv & E & _); [lia| |rewrite E in H; discriminate].
      rewrite (gcd_cong N _ lam) by (apply cong_mod; lia). apply (key_lam_gcd p q GP).
  Qed.

  (** crypto/alice/paillier: same, with byte-string interfaces; the precomputed (g, mu) exists *)
  Theorem C26_alice : exists mu, a_g_mu lam N = Some (1 + N, mu) /\
    (forall m r, 0 <= m < N -> unit_draw N r ->
       exists c, a_encrypt N (1 + N) (to_be m) r = Some c /\ a_decrypt N lam mu c = Some (to_be m)) /\
    (forall m1 m2 r1 r2 r c1 c2, unit_draw N r1 -> unit_draw N r2 -> unit_draw N r ->
       a_encrypt N (1 + N) (to_be m1) r1 = Some c1 -> a_encrypt N (1 + N) (to_be m2) r2 = Some c2 -> 0 <= m1 -> 0 <= m2 ->
       exists c, a_add N c1 c2 r = Some c /\ a_decrypt N lam mu c = Some (to_be ((m1 + m2) mod N))) /\
    (forall m s r1 r c1, unit_draw N r1 -> unit_draw N r -> a_encrypt N (1 + N) (to_be m) r1 = Some c1 -> 0 <= m ->
       exists c, a_mulconst N c1 s r = Some c /\ a_decrypt N lam mu c = Some (to_be ((m * s) mod N))).
  Proof.
    pose proof (key_N p q GP) as HN.
    assert (N3 : 2 < N).
    { cbn. destruct GP as [Pp Pq Ne _ _ _]. assert (1 < p) by (destruct Pp; auto). assert (1 < q) by (destruct Pq; auto). nia. }
    destruct (a_keys p q GP) as (mu & Em & Cm). exists mu. split; [exact Em|]. split; [|split].
    - intros m r Hm Hr. destruct (a_encrypt N (1 + N) (to_be m) r) as [cb|] eqn:E.
      + exists cb. split; [reflexivity|]. destruct (a_encrypt_encrypts N HN _ _ _ Hr E) as (_ & c & -> & K).
        rewrite (a_decrypt_encrypts p q GP _ c mu Cm K). rewrite of_be_to_be_nonneg by lia. rewrite Z.mod_small by lia. reflexivity.
      + unfold a_encrypt in E. rewrite of_be_to_be_nonneg in E by lia.
        destruct (Z.leb_spec N m); [lia|]. destruct (Z.leb_spec N 2); [lia|]. discriminate.
    - intros m1 m2 r1 r2 r c1 c2 H1 H2 Hr E1 E2 P1 P2.
      destruct (a_encrypt_encrypts N HN _ _ _ H1 E1) as (_ & d1 & -> & K1).
      destruct (a_encrypt_encrypts N HN _ _ _ H2 E2) as (_ & d2 & -> & K2).
      rewrite of_be_to_be_nonneg in K1, K2 by lia.
      destruct (a_add N (to_be d1) (to_be d2) r) as [cb|] eqn:E.
      + exists cb. split; [reflexivity|]. destruct (a_add_encrypts N HN _ _ _ _ _ _ Hr K1 K2 E) as (c & -> & K).
        apply (a_decrypt_encrypts p q GP _ c mu Cm K).
      + unfold a_add in E. destruct K1 as (R1 & K1'). destruct K2 as (R2 & K2'). rewrite !of_be_to_be_nonneg in E by lia.
        rewrite (a_correct_encrypts N HN m1 d1), (a_correct_encrypts N HN m2 d2) in E by (split; auto).
        change (true && true) with true in E. cbv iota in E. destruct (Z.leb_spec N 2); [lia|]. discriminate.
    - intros m s r1 r c1 H1 Hr E1 P1.
      destruct (a_encrypt_encrypts N HN _ _ _ H1 E1) as (_ & d1 & -> & K1). rewrite of_be_to_be_nonneg in K1 by lia.
      destruct (a_mulconst N (to_be d1) s r) as [cb|] eqn:E.
      + exists cb. split; [reflexivity|]. destruct (a_mulconst_encrypts N HN _ _ _ _ _ Hr K1 E) as (c & -> & K).
        rewrite (a_decrypt_encrypts p q GP _ c mu Cm K). rewrite Z.mul_mod_idemp_r by lia. reflexivity.
      + unfold a_mulconst in E. pose proof K1 as (R1 & _). rewrite !of_be_to_be_nonneg in E by lia.
        rewrite (a_correct_encrypts N HN m d1 K1) in E. cbv iota in E. destruct (Z.leb_spec N 2); [lia|]. discriminate.
  Qed.
End C26.

(** the hypotheses are met by a concrete key: p = 11, q = 13 *)
Fixpoint trial (k : nat) (p : Z) : bool :=
  match k with O => true | S k' => (Z.gcd (Z.of_nat k) p =? 1) && trial k' p end.
Lemma trial_prime p : 1 < p -> trial (Z.to_nat (p - 1)) p = true -> prime p.
Proof.
  intros Hp H. constructor; auto. intros n Hn. apply Zgcd_1_rel_prime.
  assert (A : forall k, trial k p = true -> forall i, (1 <= i <= k)%nat -> Z.gcd (Z.of_nat i) p = 1).
  { induction k as [|k IH]; intros T i Hi; [lia|]. cbn [trial] in T. apply andb_true_iff in T as [T1 T2].
    destruct (Nat.eq_dec i (S k)) as [->|]; [apply Z.eqb_eq; exact T1|apply IH; auto; lia]. }
  rewrite <- (Z2Nat.id n) by lia. apply (A _ H). lia.
Qed.
Lemma good_11_13 : good_primes 11 13.
Proof.
  constructor; try reflexivity; try (apply trial_prime; [lia|reflexivity]); try lia.
  exists 3. cbn. lia.
Qed.
Theorem C26_example : unit_draw 143 7 /\ 0 <= 100 < 143 /\
  pal_encrypt 143 100 7 = Some 15160 /\ pal_decrypt 143 (pk_lambda (key_of 11 13)) 15160 = Ret (Some 100).
Proof. repeat split; try lia; vm_compute; reflexivity. Qed.
