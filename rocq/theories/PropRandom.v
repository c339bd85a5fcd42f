(** PropRandom.v -- property C41: sampling helpers stay in their ranges for every output of the random source. *)
From Verif Require Import Base BigInt RangeProofs Random.
From Coq Require Import Znumtheory.

(** ** crypto/rand.Int, the source of every draw *)
(** the integer one attempt reads from its bytes, and the bytes that give [v]: one block of bytes for every j below
    2^(8k - bitLen), so the same number of blocks for every value of the range -- the draw is unbiased *)
Theorem C41_uniform max v bs : 1 < max -> 0 <= v < max ->
  let bl := bitlen (max - 1) in
  let k := (bl + 7) / 8 in
  length bs = Z.to_nat k ->
  of_be (mask0 (top_bits bl) bs) = v <-> exists! j, 0 <= j < 2 ^ (8 * k - bl) /\ bs = be_fixed (Z.to_nat k) (v + j * 2 ^ bl).
Proof.
  intros Hm Hv bl k L. assert (Hbl : 0 < bl) by (apply bitlen_pos; lia).
  destruct (top_bits_spec bl Hbl) as [Hb E]. fold k in E.
  assert (Hlt : max - 1 < 2 ^ bl) by (apply bitlen_pow; lia).
  assert (Hk : bl <= 8 * k) by lia.
  assert (EP : 256 ^ Z.of_nat (Z.to_nat k) = 2 ^ (8 * k - bl) * 2 ^ bl).
  { change 256 with (2 ^ 8). rewrite <- Z.pow_mul_r by lia. rewrite <- Z.pow_add_r by lia. f_equal. lia. }
  assert (P1 : 0 < 2 ^ bl) by (apply Z.pow_pos_nonneg; lia).
  assert (P2 : 0 < 2 ^ (8 * k - bl)) by (apply Z.pow_pos_nonneg; lia).
  rewrite mask0_value by assumption. pose proof (of_be_range bs) as R. rewrite L, EP in R.
  set (T := 2 ^ bl) in *. set (U := 2 ^ (8 * k - bl)) in *.
  assert (Small : forall j, 0 <= j < U -> 0 <= v + j * T < U * T) by (clearbody T U; intros; nia).
  split.
  - intro Hmod. exists (of_be bs / T). split.
    + split.
      * split; [apply Z.div_pos; lia|]. apply Z.div_lt_upper_bound; [lia|]. rewrite Z.mul_comm. lia.
      * rewrite <- Hmod. rewrite (Z.mul_comm (of_be bs / T) T), Z.add_comm, <- Z.div_mod by lia. rewrite <- L. symmetry. apply be_fixed_of_be.
    + intros j [Hj ->]. rewrite of_be_be_fixed by (rewrite EP; apply Small; exact Hj).
      rewrite Z.div_add by lia. rewrite Z.div_small by lia. lia.
  - intros [j [[Hj ->] _]]. rewrite of_be_be_fixed by (rewrite EP; apply Small; exact Hj).
    rewrite Z.mod_add by lia. apply Z.mod_small. lia.
Qed.
Theorem C41_int_range max s v s' : rand_int max s = Ret (Some (v, s')) -> 0 <= v < max.
Proof. intro H. apply rand_int_range in H. exact (proj1 H). Qed.
Theorem C41_int_bad_bound max s : rand_int max s = Panic <-> max <= 0.
Proof. unfold rand_int. destruct (Z.leb_spec max 0); split; intro; try lia; try reflexivity. destruct (_ =? 0); discriminate. Qed.
(** every value of the range is drawn by some source *)
Theorem C41_int_onto max v : 0 <= v < max -> exists s, forall rest, rand_int max (s ++ rest) = Ret (Some (v, rest)).
Proof.
  intro Hv. destruct (Z.eq_dec max 1) as [->|N].
  - exists []. intro. replace v with 0 by lia. reflexivity.
  - set (bl := bitlen (max - 1)). assert (Hbl : 0 < bl) by (apply bitlen_pos; lia).
    assert (Hlt : max - 1 < 2 ^ bl) by (apply bitlen_pow; lia).
    destruct (top_bits_spec bl Hbl) as [Hb E].
    exists (be_fixed (Z.to_nat ((bl + 7) / 8)) v). intro rest. unfold rand_int. fold bl.
    destruct (Z.leb_spec max 0); [lia|]. destruct (Z.eqb_spec bl 0); [lia|]. f_equal.
    rewrite int_loop_step by lia.
    assert (RF : read_full (Z.to_nat ((bl + 7) / 8)) (be_fixed (Z.to_nat ((bl + 7) / 8)) v ++ rest) = Some (be_fixed (Z.to_nat ((bl + 7) / 8)) v, rest)).
    { apply read_full_spec. split; [reflexivity|]. apply be_fixed_length. }
    rewrite RF. rewrite of_be_be_fixed.
    + rewrite Z.mod_small by lia. destruct (Z.ltb_spec v max); [reflexivity|lia].
    + split; [lia|]. apply Z.lt_le_trans with (2 ^ bl); [lia|]. change 256 with (2 ^ 8). rewrite <- Z.pow_mul_r by lia.
      apply Z.pow_le_mono_r; lia.
Qed.

(** ** MustGetRandomInt *)
(** a drawn value has at most [bits] bits -- and is never 2^bits - 1 *)
Theorem C41_must_int_range bits s v s' : must_int bits s = Ret (v, s') -> 0 <= v < 2 ^ bits - 1 /\ 0 < bits <= 5000.
Proof. apply must_int_range. Qed.
Theorem C41_must_int_bad_bits bits s : bits <= 0 \/ 5000 < bits -> must_int bits s = Panic.
Proof. intro H. unfold must_int. destruct (Z.leb_spec bits 0); [reflexivity|]. destruct (Z.ltb_spec 5000 bits); [reflexivity|lia]. Qed.
Theorem C41_must_int_onto bits v : 0 < bits <= 5000 -> 0 <= v < 2 ^ bits - 1 -> exists s, forall rest, must_int bits (s ++ rest) = Ret (v, rest).
Proof.
  intros Hb Hv. destruct (C41_int_onto (2 ^ bits - 1) v Hv) as [s E]. exists s. intro rest. unfold must_int.
  destruct (Z.leb_spec bits 0); [lia|]. destruct (Z.ltb_spec 5000 bits); [lia|]. cbn [orb]. now rewrite E.
Qed.
(** one bit is never random *)
Theorem C41_must_int_one_bit_refuted s : must_int 1 s = Ret (0, s).
Proof. reflexivity. Qed.

Lemma rep_must_onto bits ok v : 0 < bits <= 5000 -> 0 <= v < 2 ^ bits - 1 -> ok v = true -> exists s, rep (must_int bits) ok s (Ret (v, [])).
Proof. intros Hb Hv Ho. destruct (C41_must_int_onto bits v Hb Hv) as [s E]. exists (s ++ []). eapply rep_done; [apply E|exact Ho]. Qed.
Lemma rep_must_ret bits ok s v s' : rep (must_int bits) ok s (Ret (v, s')) -> ok v = true /\ 0 <= v < 2 ^ bits - 1 /\ bits <= 5000.
Proof. intro H. apply rep_result in H. destruct H as [Ho [s0 E]]. apply must_int_range in E. tauto. Qed.
Lemma rep_must_panic bits ok s o : 5000 < bits -> rep (must_int bits) ok s o -> o = Panic.
Proof. intros Hb H. inversion H; subst; try reflexivity; rewrite C41_must_int_bad_bits in * by lia; discriminate. Qed.

(** ** GetRandomPositiveInt *)
Theorem C41_positive_int n s v s' : pos_int n s (Ret (Some (v, s'))) -> exists m, n = Some m /\ 0 <= v < m /\ bitlen m <= 5000.
Proof.
  intro H. inversion H as [| |m s0 o Hm R E1 E2 E3]; subst. exists m. split; [reflexivity|].
  destruct o as [[v0 s1]|]; [|discriminate]. cbn in E3. injection E3 as <- <-. apply rep_must_ret in R. lia.
Qed.
Theorem C41_positive_int_nil n s o : n = None \/ (exists m, n = Some m /\ m <= 0) -> pos_int n s o <-> o = Ret None.
Proof.
  intros [->|[m [-> Hm]]]; split; intro H; subst; try constructor; try assumption; inversion H; subst; try reflexivity. lia.
Qed.
Theorem C41_positive_int_onto m v : 0 <= v < m -> bitlen m <= 5000 -> exists s, pos_int (Some m) s (Ret (Some (v, []))).
Proof.
  intros Hv Hb. pose proof (bitlen_pow m ltac:(lia)).
  destruct (rep_must_onto (bitlen m) (fun x => x <? m) v) as [s R].
  - split; [apply bitlen_pos; lia|lia].
  - lia.
  - lia.
  - exists s. change (Ret (Some (v, []))) with (some_of (Ret (v, []))). constructor; [lia|exact R].
Qed.
(** a bound of more than 5000 bits ends in a panic *)
Theorem C41_positive_int_large_refuted m s o : 0 < m -> 5000 < bitlen m -> pos_int (Some m) s o -> o = Panic.
Proof.
  intros Hm Hb H. inversion H as [|? ? Hm'|? ? o' Hm' R]; subst; [lia|]. apply rep_must_panic in R; [|exact Hb]. now subst.
Qed.
(** "positive" includes zero *)
Theorem C41_positive_int_zero_refuted m : 0 < m -> bitlen m <= 5000 -> exists s, pos_int (Some m) s (Ret (Some (0, []))).
Proof. intros. apply C41_positive_int_onto; [lia|assumption]. Qed.

(** ** IsNumberInMultiplicativeGroup, GetRandomPositiveRelativelyPrimeInt *)
Theorem C41_group_check n v : in_group (Some n) (Some v) = true <-> 1 <= v < n /\ rel_prime v n.
Proof.
  unfold in_group. rewrite !andb_true_iff, !Z.ltb_lt, Z.leb_le, Z.eqb_eq. rewrite <- Zgcd_1_rel_prime. lia.
Qed.
Theorem C41_coprime_int n s v s' : coprime_int n s (Ret (Some (v, s'))) -> exists m, n = Some m /\ 1 <= v < m /\ rel_prime v m.
Proof.
  intro H. inversion H as [| |m s0 o Hm R E1 E2 E3]; subst. exists m. split; [reflexivity|].
  destruct o as [[v0 s1]|]; [|discriminate]. cbn in E3. injection E3 as <- <-. apply rep_must_ret in R.
  apply C41_group_check. tauto.
Qed.
Theorem C41_coprime_int_nil n s o : n = None \/ (exists m, n = Some m /\ m <= 0) -> coprime_int n s o <-> o = Ret None.
Proof.
  intros [->|[m [-> Hm]]]; split; intro H; subst; try constructor; try assumption; inversion H; subst; try reflexivity. lia.
Qed.
Theorem C41_coprime_int_onto m v : 1 <= v < m -> rel_prime v m -> bitlen m <= 5000 -> exists s, coprime_int (Some m) s (Ret (Some (v, []))).
Proof.
  intros Hv Hc Hb. pose proof (bitlen_pow m ltac:(lia)).
  destruct (rep_must_onto (bitlen m) (fun x => in_group (Some m) (Some x)) v) as [s R].
  - split; [apply bitlen_pos; lia|lia].
  - lia.
  - apply C41_group_check. tauto.
  - exists s. change (Ret (Some (v, []))) with (some_of (Ret (v, []))). constructor; [lia|exact R].
Qed.
(** for the modulus 1 the search never ends: the one drawn value, 0, is rejected forever *)
Theorem C41_coprime_int_one_refuted s o : ~ coprime_int (Some 1) s o.
Proof.
  intro H. inversion H as [|? ? Hm|? ? o' Hm R]; subst; [lia|].
  clear H Hm. change (bitlen 1) with 1 in R. induction R as [s a s' D Ok|s a s' o D Ok R IH|s D].
  - rewrite C41_must_int_one_bit_refuted in D. injection D as <- <-. discriminate.
  - exact IH.
  - rewrite C41_must_int_one_bit_refuted in D. discriminate.
Qed.

(** ** GetRandomPrimeInt *)
Theorem C41_prime_int pp pr bits s v s' : prime_int pp pr bits s (Ret (Some (v, s'))) ->
  0 < bits /\ (pr = Some v \/ (pp v = true /\ 0 <= v < 2 ^ bits - 1)).
Proof.
  intro H. inversion H as [| |? ? o Hb Hp R E1 E2 E3]; subst; [tauto|]. split; [assumption|right].
  destruct o as [[v0 s1]|]; [|discriminate]. cbn in E3. injection E3 as <- <-. apply rep_must_ret in R. tauto.
Qed.
Theorem C41_prime_int_nil pp pr bits s o : bits <= 0 -> prime_int pp pr bits s o <-> o = Ret None.
Proof. intro Hb. split; intro H; subst; try (constructor; assumption). inversion H; subst; try reflexivity; lia. Qed.
(** crypto/rand.Prime refuses one bit, and the fallback then never ends (ProbablyPrime(0) is false) *)
Theorem C41_prime_int_one_bit_refuted pp s o : pp 0 = false -> ~ prime_int pp None 1 s o.
Proof.
  intros Hp H. inversion H as [?| |? ? o' Hb Hpr R]; subst; [lia|discriminate|].
  clear - Hp R. induction R as [s a s' D Ok|s a s' o D Ok R IH|s D].
  - rewrite C41_must_int_one_bit_refuted in D. injection D as <- <-. congruence.
  - exact IH.
  - rewrite C41_must_int_one_bit_refuted in D. discriminate.
Qed.

(** ** GetRandomGeneratorOfTheQuadraticResidue, GenerateNTildei *)
Theorem C41_qr n s h s' : qr_gen n s (Ret (h, s')) ->
  exists m f, n = Some m /\ 0 <= h < m /\ rel_prime h m /\ 1 <= f < m /\ rel_prime f m /\ h = (f * f) mod m.
Proof.
  intro H. inversion H as [| |m s0 f s1 R]; subst. apply C41_coprime_int in R. destruct R as [m' [E [Hf Hc]]].
  injection E as <-. exists m, f. assert (Hm : 0 < m) by lia.
  assert (HR : rel_prime ((f * f) mod m) m).
  { apply Zgcd_1_rel_prime. rewrite Z.gcd_mod by lia. rewrite Z.gcd_comm. apply Zgcd_1_rel_prime.
    apply rel_prime_sym, rel_prime_mult; now apply rel_prime_sym. }
  pose proof (Z.mod_pos_bound (f * f) m Hm). tauto.
Qed.
(** a missing or non-positive modulus is a nil dereference *)
Theorem C41_qr_panic n s o : n = None \/ (exists m, n = Some m /\ m <= 0) -> qr_gen n s o <-> o = Panic.
Proof.
  intro Hn. split.
  - intro H. inversion H as [? ? R|? ? R|? ? ? ? R]; subst; try reflexivity.
    apply (proj1 (C41_coprime_int_nil _ _ _ Hn)) in R. discriminate.
  - intros ->. apply qr_nil. apply (proj2 (C41_coprime_int_nil _ _ _ Hn)). reflexivity.
Qed.
Theorem C41_ntilde pp a b s nt h1 h2 : ntildei pp a b s (Ret (Some (nt, h1, h2))) ->
  exists p q, a = Some p /\ b = Some q /\ pp p = true /\ pp q = true /\ nt = p * q /\
    (0 <= h1 < nt /\ rel_prime h1 nt /\ exists f, 1 <= f < nt /\ h1 = (f * f) mod nt) /\
    (0 <= h2 < nt /\ rel_prime h2 nt /\ exists f, 1 <= f < nt /\ h2 = (f * f) mod nt).
Proof.
  intro H. inversion H as [| | | |p q s0 h1' s1 h2' s2 Pp Pq R1 R2]; subst. exists p, q.
  apply C41_qr in R1, R2. destruct R1 as [m [f [E [A1 [A2 [A3 [A4 A5]]]]]]]. destruct R2 as [m' [f' [E' [B1 [B2 [B3 [B4 B5]]]]]]].
  injection E as <-. injection E' as <-.
  do 5 (split; [first [reflexivity|assumption]|]). split; (split; [assumption|split; [assumption|]]); [exists f|exists f']; tauto.
Qed.
Theorem C41_ntilde_error pp a b s : (a = None \/ b = None) \/ (exists p q, a = Some p /\ b = Some q /\ (pp p = false \/ pp q = false)) ->
  forall o, ntildei pp a b s o <-> o = Ret None.
Proof.
  intros Hab o. split.
  - intro H. assert (K : forall p q, a = Some p -> b = Some q -> pp p = true -> pp q = true -> False).
    { intros p q -> -> Hp Hq. destruct Hab as [[?|?]|[? [? [E1 [E2 [?|?]]]]]]; try discriminate; injection E1 as <-; injection E2 as <-; congruence. }
    destruct H; try reflexivity; exfalso; eapply K; eauto.
  - intros ->. destruct Hab as [?|[p [q [-> [-> ?]]]]]; constructor; assumption.
Qed.
(** the two primes need be neither distinct nor safe: the modulus may be a square *)
Theorem C41_ntilde_square_refuted pp : pp 3 = true -> exists s, ntildei pp (Some 3) (Some 3) s (Ret (Some (9, 4, 4))).
Proof.
  intro Hp.
  assert (Q : forall rest, qr_gen (Some 9) (zb 2 :: rest) (Ret (4, rest))).
  { intro rest. change 4 with ((2 * 2) mod 9). apply qr_ret. change (Ret (Some (2, rest))) with (some_of (Ret (2, rest))). apply cop_run; [lia|].
    apply rep_done; reflexivity. }
  exists [zb 2; zb 2]. change 9 with (3 * 3). eapply nt_ret; try assumption; apply Q.
Qed.

(** ** GetRandomBytes, GenRandomBytes *)
Theorem C41_random_bytes len rd bs : get_random_bytes len rd = Some bs -> 0 < len /\ Z.of_nat (length bs) = len.
Proof.
  unfold get_random_bytes. destruct (Z.leb_spec len 0); [discriminate|]. destruct rd as [c|]; [|discriminate].
  intro E. injection E as <-. split; [assumption|]. rewrite app_length, repeat_length, firstn_length. lia.
Qed.
Theorem C41_random_bytes_full len c : 0 < len -> Z.of_nat (length c) = len -> get_random_bytes len (Some c) = Some c.
Proof.
  intros Hl L. unfold get_random_bytes. destruct (Z.leb_spec len 0); [lia|]. rewrite firstn_all2 by lia.
  replace (Z.to_nat len - length c)%nat with O by lia. cbn [repeat]. now rewrite app_nil_r.
Qed.
Theorem C41_random_bytes_bad len rd : len <= 0 -> get_random_bytes len rd = None.
Proof. intro. unfold get_random_bytes. destruct (Z.leb_spec len 0); [reflexivity|lia]. Qed.
(** a reader that delivers fewer bytes than asked leaves zero bytes, with no error *)
Theorem C41_random_bytes_short_refuted c len : (0 < len) -> Z.of_nat (length c) < len ->
  get_random_bytes len (Some c) = Some (c ++ repeat (zb 0) (Z.to_nat len - length c)).
Proof. intros Hl L. unfold get_random_bytes. destruct (Z.leb_spec len 0); [lia|]. rewrite firstn_all2 by lia. reflexivity. Qed.
Theorem C41_u_random_bytes size s : u_random_bytes size s = None <-> size < 1 \/ Z.of_nat (length s) < size.
Proof.
  unfold u_random_bytes, read_full. destruct (Z.ltb_spec size 1); [split; [now left|reflexivity]|].
  destruct (Nat.leb_spec (Z.to_nat size) (length s)); split; try discriminate; intro; try reflexivity; lia.
Qed.
Theorem C41_u_random_bytes_length size s bs s' : u_random_bytes size s = Some (bs, s') -> Z.of_nat (length bs) = size /\ s = bs ++ s'.
Proof.
  unfold u_random_bytes. destruct (Z.ltb_spec size 1); [discriminate|]. intro H1. apply read_full_spec in H1. destruct H1 as [-> L]. split; [lia|reflexivity].
Qed.

(** ** RandomInt, RandomPositiveInt, RandomCoprimeInt, RandomAbsoluteRangeInt *)
Theorem C41_u_int n s v s' : u_random_int n s = Some (v, s') -> 0 <= v < n.
Proof.
  unfold u_random_int. destruct (Z.leb_spec n 0); [discriminate|]. destruct (rand_int n s) eqn:E; [|discriminate]. intros ->. now apply C41_int_range in E.
Qed.
Theorem C41_u_int_bad n s : n <= 0 -> u_random_int n s = None.
Proof. intro. unfold u_random_int. destruct (Z.leb_spec n 0); [reflexivity|lia]. Qed.
Theorem C41_u_int_onto n v : 0 <= v < n -> exists s, forall rest, u_random_int n (s ++ rest) = Some (v, rest).
Proof.
  intro Hv. destruct (C41_int_onto n v Hv) as [s E]. exists s. intro rest. unfold u_random_int. rewrite E. destruct (Z.leb_spec n 0); [lia|reflexivity].
Qed.
Theorem C41_u_pos n s v s' : u_random_pos n s = Some (v, s') -> 1 <= v < n.
Proof.
  unfold u_random_pos. destruct (u_random_int (n - 1) s) as [[x s1]|] eqn:E; [|discriminate]. intro H. injection H as <- <-.
  apply C41_u_int in E. lia.
Qed.
Theorem C41_u_pos_bad n s : n <= 1 -> u_random_pos n s = None.
Proof. intro. unfold u_random_pos. rewrite C41_u_int_bad by lia. reflexivity. Qed.
Theorem C41_u_pos_onto n v : 1 <= v < n -> exists s, forall rest, u_random_pos n (s ++ rest) = Some (v, rest).
Proof.
  intro Hv. destruct (C41_u_int_onto (n - 1) (v - 1)) as [s E]; [lia|]. exists s. intro rest. unfold u_random_pos. rewrite E. do 2 f_equal. lia.
Qed.
Theorem C41_u_coprime n s v s' : u_random_coprime n s = Some (v, s') -> 2 <= v < n /\ rel_prime v n.
Proof.
  unfold u_random_coprime. destruct (Z.leb_spec n 2); [discriminate|]. generalize 100%nat as k. intro k. revert s. induction k as [|k IH]; intro s; [discriminate|].
  cbn [u_coprime_loop]. destruct (u_random_int n s) as [[r s1]|] eqn:E; [|discriminate]. apply C41_u_int in E.
  destruct (Z.leb_spec r 1); [apply IH|]. destruct (Z.eqb_spec (Z.gcd r n) 1); [|apply IH].
  intro H1. injection H1 as <- <-. split; [lia|]. now apply Zgcd_1_rel_prime.
Qed.
Theorem C41_u_coprime_bad n s : n <= 2 -> u_random_coprime n s = None.
Proof. intro. unfold u_random_coprime. destruct (Z.leb_spec n 2); [reflexivity|lia]. Qed.
Theorem C41_u_coprime_onto n v : 2 <= v < n -> rel_prime v n -> exists s, u_random_coprime n s = Some (v, []).
Proof.
  intros Hv Hc. destruct (C41_u_int_onto n v) as [s E]; [lia|]. exists (s ++ []). unfold u_random_coprime. destruct (Z.leb_spec n 2); [lia|].
  change 100%nat with (S 99). generalize 99%nat as k. intro k. cbn [u_coprime_loop]. rewrite E. destruct (Z.leb_spec v 1); [lia|]. apply Zgcd_1_rel_prime in Hc. rewrite Hc. reflexivity.
Qed.
(** the documented range is [-n, n]; the values are exactly those of [1 - n, n + 1] *)
Theorem C41_u_abs n s v s' : u_random_abs n s = Some (v, s') -> 0 <= n /\ 1 - n <= v <= n + 1.
Proof.
  unfold u_random_abs. destruct (u_random_pos _ s) as [[x s1]|] eqn:E; [|discriminate]. intro H. injection H as <- <-. apply C41_u_pos in E. lia.
Qed.
Theorem C41_u_abs_onto n v : 1 - n <= v <= n + 1 -> exists s, forall rest, u_random_abs n (s ++ rest) = Some (v, rest).
Proof.
  intro Hv. destruct (C41_u_pos_onto (2 * (n + 1)) (v + n)) as [s E]; [lia|]. exists s. intro rest. unfold u_random_abs. rewrite E. do 2 f_equal. lia.
Qed.
Theorem C41_u_abs_bad n s : n < 0 -> u_random_abs n s = None.
Proof. intro. unfold u_random_abs. rewrite C41_u_pos_bad by lia. reflexivity. Qed.
Theorem C41_u_abs_range_refuted n : 0 <= n -> (exists s, u_random_abs n s = Some (n + 1, [])) /\ forall s s', u_random_abs n s <> Some (- n, s').
Proof.
  intro Hn. split.
  - destruct (C41_u_abs_onto n (n + 1)) as [s E]; [lia|]. exists (s ++ []). apply E.
  - intros s s' H. apply C41_u_abs in H. lia.
Qed.

(** ** HashProtosRejectSampling, RandomAbsoluteRangeIntBySeed *)
Theorem C41_u_reject B order parts s c salt : u_reject B order parts s = Some (c, salt) ->
  0 <= c < order /\ length salt = 32%nat /\ c = of_be (B (hash_input salt parts)).
Proof.
  unfold u_reject. generalize 100%nat as k. intro k. revert s. induction k as [|k IH]; intro s; [discriminate|].
  cbn [u_reject_loop]. destruct (u_random_bytes 32 s) as [[salt' s']|] eqn:E; [|discriminate].
  apply C41_u_random_bytes_length in E. destruct (in_range _ 0 order) eqn:R; [|apply IH].
  intro H. injection H as <- <-. unfold in_range in R. repeat split; try lia. 
Qed.
Theorem C41_seed_range B salt seed q : (forall x, length (B x) = 32%nat) -> - 2 ^ bitlen q <= seed_e B salt seed q < 2 ^ bitlen q.
Proof.
  intro HB. unfold seed_e, ext_hash. set (bits := bitlen q + 1). set (up := (bits + 255) / 256).
  pose proof (bitlen_nonneg q). assert (Hup : 0 <= up) by (unfold up; lia).
  pose proof (of_be_range (ext_blocks B salt seed (Z.to_nat up))) as R.
  assert (L : length (ext_blocks B salt seed (Z.to_nat up)) = (32 * Z.to_nat up)%nat).
  { unfold ext_blocks. rewrite <- (seq_length (Z.to_nat up) 0) at 2. generalize (seq 0 (Z.to_nat up)). clear - HB.
    induction l as [|i l IH]; [reflexivity|]. cbn [flat_map length]. rewrite app_length, HB, IH. lia. }
  rewrite L in R. assert (E : 256 ^ Z.of_nat (32 * Z.to_nat up) = 2 ^ bits * 2 ^ (256 * up - bits)).
  { change 256 with (2 ^ 8) at 1. rewrite <- Z.pow_mul_r by lia. rewrite <- Z.pow_add_r by (unfold up; lia). f_equal. lia. }
  rewrite E in R. set (x := of_be _) in *.
  assert (P : 0 < 2 ^ (256 * up - bits)) by (apply Z.pow_pos_nonneg; unfold up; lia).
  assert (0 <= x / 2 ^ (256 * up - bits) < 2 ^ bits).
  { split; [apply Z.div_pos; lia|]. apply Z.div_lt_upper_bound; [assumption|]. rewrite Z.mul_comm. lia. }
  assert (2 ^ bits = 2 * 2 ^ bitlen q) by (unfold bits; rewrite Z.pow_add_r by lia; lia). lia.
Qed.
(** the documented open interval (-2^b, 2^b) is not kept: a hash of zero bytes gives -2^b itself *)
Theorem C41_seed_lower_bound_refuted q salt seed : seed_e (fun _ => repeat (zb 0) 32) salt seed q = - 2 ^ bitlen q.
Proof.
  unfold seed_e, ext_hash, ext_blocks. set (up := Z.to_nat _).
  assert (E : forall l : list nat, of_be (flat_map (fun _ => repeat (zb 0) 32) l) = 0).
  { induction l as [|i l IH]; [reflexivity|]. cbn [flat_map]. rewrite of_be_zeros. exact IH. }
  rewrite (E (seq 0 up)). rewrite Z.div_0_l; [reflexivity|]. apply Z.pow_nonzero; [lia|].
  pose proof (bitlen_nonneg q). lia.
Qed.

(** ** concrete runs *)
Theorem C41_example :
  rand_int 10 [zb 250; zb 25; zb 7] = Ret (Some (9, [zb 7])) /\
  pos_int (Some 10) [zb 15; zb 12; zb 3; zb 9] (Ret (Some (3, [zb 9]))) /\
  coprime_int (Some 10) [zb 4; zb 7] (Ret (Some (7, []))) /\
  u_random_coprime 10 [zb 0; zb 1; zb 6; zb 19] = Some (3, []) /\
  u_random_abs 3 [zb 7; zb 0] = Some (-2, []).
Proof.
  repeat split; try reflexivity.
  - change (Ret (Some (3, [zb 9]))) with (some_of (Ret (3, [zb 9]))). apply pos_run; [lia|].
    eapply rep_again with (a := 12) (s' := [zb 3; zb 9]); [reflexivity|reflexivity|]. apply rep_done; reflexivity.
  - change (Ret (Some (7, @nil byte))) with (some_of (Ret (7, @nil byte))). apply cop_run; [lia|].
    eapply rep_again with (a := 4) (s' := [zb 7]); [reflexivity|reflexivity|]. apply rep_done; reflexivity.
Qed.
