(** Carmichael.v -- exponent facts modulo N and N^2 for N = p*q, and (1+N)^k mod N^2. *)
From Verif Require Import Base NumTh Euler.
From Coq Require Import Znumtheory RelationClasses.

Definition lcm_of (a b : Z) : Z := a * b / Z.gcd a b.
Lemma lcm_of_l a b : 0 < a -> 0 < b -> (a | lcm_of a b).
Proof.
  intros. unfold lcm_of. destruct (Z.gcd_divide_r a b) as [k Hk].
  assert (Z.gcd a b <> 0) by (intro E; apply Z.gcd_eq_0_l in E; lia).
  exists k. rewrite Hk at 1. rewrite Z.mul_assoc. rewrite Z.div_mul by lia. lia.
Qed.
Lemma lcm_of_r a b : 0 < a -> 0 < b -> (b | lcm_of a b).
Proof.
  intros. unfold lcm_of. destruct (Z.gcd_divide_l a b) as [k Hk].
  assert (Z.gcd a b <> 0) by (intro E; apply Z.gcd_eq_0_l in E; lia).
  exists k. rewrite Hk at 1. replace (k * Z.gcd a b * b) with (k * b * Z.gcd a b) by ring. rewrite Z.div_mul by lia. lia.
Qed.
Lemma lcm_of_pos a b : 0 < a -> 0 < b -> 0 < lcm_of a b.
Proof.
  intros. unfold lcm_of. assert (Z.gcd a b <> 0) by (intro E; apply Z.gcd_eq_0_l in E; lia).
  pose proof (Z.gcd_nonneg a b). apply Z.div_str_pos. split; [lia|].
  destruct (Z.gcd_divide_l a b) as [k Hk]. assert (0 < k) by nia. nia.
Qed.

Lemma pow_one_mult m a e k : 0 <= e -> 0 <= k -> (e | k) -> cong m (a ^ e) 1 -> cong m (a ^ k) 1.
Proof.
  intros He Hk [q ->] H. destruct (Z.eq_dec e 0) as [->|E0]; [rewrite Z.mul_0_r, Z.pow_0_r; reflexivity|].
  assert (0 <= q) by nia. rewrite Z.mul_comm. rewrite Z.pow_mul_r by lia. rewrite (cong_pow m _ _ q H).
  rewrite Z.pow_1_l by lia. reflexivity.
Qed.
Lemma cong_crt a b x y : rel_prime a b -> cong a x y -> cong b x y -> cong (a * b) x y.
Proof.
  intros R [k Hk] Hb. unfold cong in Hb. rewrite Hk in Hb.
  rewrite Z.mul_comm in Hb. apply Gauss in Hb; [|apply rel_prime_sym; exact R].
  destruct Hb as [j Hj]. exists j. rewrite Hk, Hj. ring.
Qed.
Lemma gcd_factor_l x p q : Z.gcd x (p * q) = 1 -> Z.gcd x p = 1.
Proof.
  intro H. apply Zgcd_1_rel_prime. apply Zgcd_1_rel_prime in H.
  apply rel_prime_sym. apply rel_prime_sym in H. eapply rel_prime_div; [exact H|]. exists q. ring.
Qed.
Lemma gcd_factor_r x p q : Z.gcd x (p * q) = 1 -> Z.gcd x q = 1.
Proof. rewrite Z.mul_comm. apply gcd_factor_l. Qed.
Lemma primes_rel p q : prime p -> prime q -> p <> q -> rel_prime p q.
Proof.
  intros Hp Hq D. apply prime_rel_prime; auto. intro E.
  destruct (prime_divisors q Hq p E) as [|[|[|]]]; destruct Hp, Hq; lia.
Qed.
Lemma rel_prime_sq p q : rel_prime p q -> rel_prime (p * p) (q * q).
Proof.
  intro H. apply rel_prime_mult; apply rel_prime_sym; apply rel_prime_mult; apply rel_prime_sym; auto using rel_prime_sym.
Qed.

Section PQ.
  Variables p q x e : Z.
  Hypothesis Pp : prime p.
  Hypothesis Pq : prime q.
  Hypothesis D : p <> q.
  Hypothesis He : 0 <= e.
  Hypothesis Ep : (p - 1 | e).
  Hypothesis Eq : (q - 1 | e).
  Hypothesis G : Z.gcd x (p * q) = 1.

  Lemma euler_sq_p r : prime r -> (r - 1 | e) -> (r | p * q) -> Z.gcd x r = 1 -> cong (r * r) (x ^ (p * q * e)) 1.
  Proof.
    intros Pr Er Dr Gr. assert (1 < r) by (destruct Pr; auto).
    assert (1 < p) by (destruct Pp; auto). assert (1 < q) by (destruct Pq; auto).
    rewrite <- (cong_mod (r * r) x) by nia.
    assert (0 <= x mod (r * r)) by (apply Z.mod_pos_bound; nia).
    apply (pow_one_mult _ _ (r * (r - 1))); [nia|nia| |].
    - apply Z.mul_divide_mono_l with (p := r) in Er. eapply Z.divide_trans; [exact Er|].
      apply Z.mul_divide_mono_r. exact Dr.
    - apply fermat_sq; auto. rewrite <- Gr. apply gcd_cong. apply (cong_div (r * r)); [exists r; ring|].
      apply cong_mod; nia.
  Qed.
  (** x^(N*e) = 1 mod N^2 *)
  Lemma carmichael_sq : cong ((p * q) * (p * q)) (x ^ (p * q * e)) 1.
  Proof.
    replace ((p * q) * (p * q)) with ((p * p) * (q * q)) by ring.
    apply cong_crt; [apply rel_prime_sq, primes_rel; auto| |].
    - apply euler_sq_p; auto; [exists q; ring|eapply gcd_factor_l; eauto].
    - apply euler_sq_p; auto; [exists p; ring|eapply gcd_factor_r; eauto].
  Qed.
  Lemma euler_p r : prime r -> (r - 1 | e) -> Z.gcd x r = 1 -> cong r (x ^ e) 1.
  Proof.
    intros Pr Er Gr. assert (1 < r) by (destruct Pr; auto).
    rewrite <- (cong_mod r x) by lia. assert (0 <= x mod r) by (apply Z.mod_pos_bound; lia).
    apply (pow_one_mult _ _ (r - 1)); [lia|lia|auto|]. apply fermat; auto.
    rewrite <- Gr. apply gcd_cong. apply cong_mod; lia.
  Qed.
  (** x^e = 1 mod N *)
  Lemma carmichael : cong (p * q) (x ^ e) 1.
  Proof.
    apply cong_crt; [apply primes_rel; auto| |]; apply euler_p; auto; [eapply gcd_factor_l|eapply gcd_factor_r]; eauto.
  Qed.
End PQ.

Lemma one_plus_pow N k : 0 <= k -> cong (N * N) ((1 + N) ^ k) (1 + k * N).
Proof.
  revert k. apply natlike_ind; [rewrite Z.pow_0_r; exists 0; ring|].
  intros k Hk IH. rewrite Z.pow_succ_r by lia. rewrite IH. exists k. unfold Z.succ. ring.
Qed.
Lemma one_plus_gcd N : 0 < N -> Z.gcd (1 + N) (N * N) = 1.
Proof.
  intro. apply Zgcd_1_rel_prime. apply rel_prime_mult; apply bezout_rel_prime; apply (Bezout_intro _ _ _ 1 (-1)); lia.
Qed.
(** signed version *)
Lemma expm_one_plus N k r : 1 < N -> expm (1 + N) k (N * N) = Some r -> r = (1 + k * N) mod (N * N).
Proof.
  intros HN H. assert (0 < N * N) by nia.
  apply (cong_small (N * N)); [eapply expm_range; eauto|apply Z.mod_pos_bound; lia|].
  rewrite cong_mod by lia.
  destruct (Z_le_gt_dec 0 k) as [Hk|Hk].
  - rewrite expm_nonneg in H by lia. inversion H. rewrite cong_mod by lia. apply one_plus_pow; auto.
  - assert (M : 0 < N * N) by lia. pose proof (expm_char _ _ _ _ M H (- k) ltac:(lia) ltac:(lia)) as C.
    rewrite Z.add_opp_diag_r, Z.pow_0_r in C. rewrite one_plus_pow in C by lia.
    apply (unit_cancel _ (1 + - k * N)).
    + replace (1 + - k * N) with (1 * 1 + - k * N) by ring.
      apply Zgcd_1_rel_prime. apply rel_prime_mult; apply bezout_rel_prime; apply (Bezout_intro _ _ _ 1 k); ring.
    + rewrite (Z.mul_comm _ r), C. exists (k * k). ring.
Qed.
