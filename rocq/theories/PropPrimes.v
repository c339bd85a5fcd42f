(** PropPrimes.v -- property C40: safe-prime screening. *)
From Verif Require Import Base BigInt NumTh Euler RangeProofs Random PropRandom Jacobi Primes.
From Coq Require Import Znumtheory Zpow_facts.

(** ** FastMod3 *)
Lemma count_nil f i bl n : bl <= i -> count_bits f i bl n = 0.
Proof. intro H. destruct f; [reflexivity|]. cbn [count_bits]. destruct (Z.ltb_spec i bl); [lia|reflexivity]. Qed.
Lemma count_mod3 f bl n : bl <= 2 * Z.of_nat f -> 0 <= bl -> 0 <= n < 2 ^ bl -> exists k, count_bits f 0 bl n - count_bits f 1 bl n = n + 3 * k.
Proof.
  revert bl n. induction f as [|f IH]; intros bl n Hf Hbl Hn.
  - replace bl with 0 in * by lia. change (2 ^ 0) with 1 in Hn. exists 0. cbn. lia.
  - cbn [count_bits]. pose proof (low_bits n) as LB. destruct (Z.ltb_spec 0 bl); destruct (Z.ltb_spec 1 bl); try lia.
    + rewrite count_shift by lia. replace (1 + 2) with (1 + 2) by lia. rewrite count_shift by lia.
      destruct (IH (bl - 2) (n / 4)) as [k Hk]; [lia|lia| |].
      * replace (2 ^ bl) with (4 * 2 ^ (bl - 2)) in Hn; [lia|]. change 4 with (2 ^ 2). rewrite <- Z.pow_add_r by lia. f_equal. lia.
      * exists (k - n / 4 - (if Z.testbit n 1 then 1 else 0)).
        pose proof (Z.div_mod n 4 ltac:(lia)) as DM. lia.
    + replace bl with 1 in * by lia. change (2 ^ 1) with 2 in Hn. rewrite count_nil by lia. exists 0.
      assert (E : n = 0 \/ n = 1) by lia. destruct E as [-> | ->]; reflexivity.
    + replace bl with 0 in * by lia. change (2 ^ 0) with 1 in Hn. exists 0. lia.
Qed.
Theorem C40_fast_mod3 n : 0 <= n -> fast_mod3 n = n mod 3.
Proof.
  intro Hn. unfold fast_mod3. pose proof (bitlen_nonneg n) as Hb.
  destruct (count_mod3 (Z.to_nat (bitlen n)) (bitlen n) n) as [k Hk]; [lia|lia| |].
  - destruct (Z.eq_dec n 0) as [->|N]; [cbn; lia|]. pose proof (bitlen_pow n ltac:(lia)). lia.
  - set (a := count_bits _ 0 _ n) in *. set (b := count_bits _ 1 _ n) in *. clearbody a b.
    destruct (Z.ltb_spec b a); [replace (a - b) with (n + k * 3) by lia|replace (2 * (b - a)) with (n + (- n - 2 * k) * 3) by lia]; apply Z.mod_add; lia.
Qed.
(** for a negative number the two's-complement bits are counted and the answer is wrong *)
Theorem C40_fast_mod3_negative_refuted : fast_mod3 (-1) <> (-1) mod 3.
Proof. vm_compute. discriminate. Qed.

(** ** the tables *)
Lemma small_prime n : 1 < n < 1024 -> forallb (fun d => negb (n mod d =? 0) || (d =? n)) (zseq 2 31) = true -> prime n.
Proof.
  intros Hn F. rewrite forallb_forall in F.
  destruct (lpf_spec n ltac:(lia)) as [P [[k Hk] Le]]. pose proof (prime_ge_2 _ P) as P2. set (d := lpf n) in *. clearbody d.
  destruct (Z.eq_dec d n) as [->|N]; [exact P|exfalso].
  assert (K : 2 <= k) by nia.
  assert (D : d <= 31 \/ k <= 31) by nia. destruct D as [D|D].
  - specialize (F d). rewrite in_zseq in F by lia. specialize (F ltac:(lia)). rewrite Hk, Z.mod_mul in F by lia. destruct (Z.eqb_spec d (k * d)); [lia|discriminate].
  - specialize (F k). rewrite in_zseq in F by lia. specialize (F ltac:(lia)). rewrite Hk, Z.mul_comm, Z.mod_mul in F by lia. destruct (Z.eqb_spec k (d * k)); [nia|discriminate].
Qed.
Definition all_primes : list Z := concat prime_table.
(** the constant next to a row of primes is a multiple of every prime of the row, so reducing by it first keeps their residues *)
Theorem C40_table_products_partial : length prime_products = length prime_table /\
  (forall P ps p, In (P, ps) (combine prime_products prime_table) -> In p ps -> (p | P)) /\
  prime3_product = 3 * nth 0 prime_products 0 /\ small_product = lprod small_primes /\
  Forall (fun p => 0 < p < 2 ^ 64) (prime3_product :: small_product :: prime_products).
Proof.
  split; [reflexivity|]. split.
  { intros P ps p I J. assert (F : forallb (fun t => forallb (fun p => fst t mod p =? 0) (snd t)) (combine prime_products prime_table) = true) by (vm_compute; reflexivity).
    rewrite forallb_forall in F. specialize (F _ I). rewrite forallb_forall in F. specialize (F p J). cbn [fst] in F.
    assert (G : forallb (fun t => forallb (fun p => 0 <? p) (snd t)) (combine prime_products prime_table) = true) by (vm_compute; reflexivity).
    rewrite forallb_forall in G. specialize (G _ I). rewrite forallb_forall in G. specialize (G p J). apply Z.mod_divide; lia. }
  split; [vm_compute; reflexivity|]. split; [vm_compute; reflexivity|].
  apply Forall_forall. intros x Hx.
  assert (F : forallb (fun p => (0 <? p) && (p <? 2 ^ 64)) (prime3_product :: small_product :: prime_products) = true) by (vm_compute; reflexivity).
  rewrite forallb_forall in F. specialize (F x Hx). lia.
Qed.
(** the constant of the second row is not the product of that row: it carries an extra factor 7 * 13 *)
Theorem C40_table_second_product_refuted : nth 1 prime_products 0 <> lprod (nth 1 prime_table []) /\ nth 1 prime_products 0 = 91 * lprod (nth 1 prime_table []) /\
  forall i, i <> 1%nat -> (i < 23)%nat -> nth i prime_products 0 = lprod (nth i prime_table []).
Proof.
  split; [vm_compute; discriminate|]. split; [vm_compute; reflexivity|]. intros i N L.
  assert (F : forallb (fun i => (Nat.eqb i 1) || (nth i prime_products 0 =? lprod (nth i prime_table []))) (seq 0 23) = true) by (vm_compute; reflexivity).
  rewrite forallb_forall in F. specialize (F i). rewrite in_seq in F. specialize (F ltac:(lia)). apply orb_true_iff in F. destruct F as [F|F]; [apply Nat.eqb_eq in F; lia|now apply Z.eqb_eq].
Qed.
Lemma table_check : forallb (fun n => ((4 <? n) && (n <? 1024)) && forallb (fun d => negb (n mod d =? 0) || (d =? n)) (zseq 2 31)) all_primes = true.
Proof. vm_compute. reflexivity. Qed.
Theorem C40_table_primes p : In p all_primes -> prime p /\ 5 <= p <= 991.
Proof.
  intro I. pose proof table_check as F. rewrite forallb_forall in F. specialize (F p I). apply andb_true_iff in F. destruct F as [R F].
  split; [apply small_prime; [lia|exact F]|].
  assert (G : forallb (fun n => n <=? 991) all_primes = true) by (vm_compute; reflexivity). rewrite forallb_forall in G. specialize (G p I). lia.
Qed.
Definition in_table (n : Z) : bool := existsb (Z.eqb n) all_primes.
Lemma table_complete_check : forallb (fun n => existsb (fun d => (n mod d =? 0) && negb (d =? n)) [2; 3; 5; 7; 11; 13; 17; 19; 23; 29; 31] || in_table n || (n =? 313) || (n =? 547)) (zseq 5 996) = true.
Proof. vm_compute. reflexivity. Qed.
(** every prime from 5 to 996 is in the tables -- except 313 and 547, which were forgotten *)
Theorem C40_table_complete p : prime p -> 5 <= p <= 996 -> In p all_primes \/ p = 313 \/ p = 547.
Proof.
  intros P R. pose proof table_complete_check as F. rewrite forallb_forall in F. specialize (F p). rewrite in_zseq in F by lia. specialize (F R).
  apply orb_true_iff in F. destruct F as [F|F]; [|right; lia]. apply orb_true_iff in F. destruct F as [F|F]; [|right; lia]. left. apply orb_true_iff in F. destruct F as [F|F].
  - exfalso. apply existsb_exists in F. destruct F as [d [Id E]]. apply andb_true_iff in E. destruct E as [E1 E2].
    assert (2 <= d <= 31) by (cbn in Id; lia). assert (D : (d | p)) by (apply Z.mod_divide; lia).
    destruct (prime_divisors p P d D) as [A|[A|[A|A]]]; lia.
  - apply existsb_exists in F. destruct F as [x [I E]]. apply Z.eqb_eq in E. now subst.
Qed.
Theorem C40_table_gap_refuted : (prime 313 /\ ~ In 313 all_primes) /\ (prime 547 /\ ~ In 547 all_primes).
Proof.
  assert (F : forallb (fun n => negb (n =? 313) && negb (n =? 547)) all_primes = true) by (vm_compute; reflexivity). rewrite forallb_forall in F.
  split; (split; [apply small_prime; [lia|vm_compute; reflexivity]|]); intro I; specialize (F _ I); discriminate.
Qed.

(** ** the sieve *)
(** checkSafePrimes accepts exactly the numbers m such that no listed prime divides m or 2m+1 *)
Theorem C40_check_safe m P ps : 0 < P -> (forall p, In p ps -> 0 < p /\ Z.odd p = true /\ (p | P)) ->
  check_safe m P ps = true <-> forall p, In p ps -> ~ (p | m) /\ ~ (p | 2 * m + 1).
Proof.
  intros HP F. unfold check_safe. rewrite forallb_forall.
  assert (K : forall p, In p ps -> negb ((m mod P) mod p =? 0) && negb ((m mod P) mod p =? p / 2) = true <-> ~ (p | m) /\ ~ (p | 2 * m + 1)).
  { intros p I. destruct (F p I) as [Pp [Op D]].
    assert (E : (m mod P) mod p = m mod p) by (symmetry; apply Zmod_div_mod; [exact Pp|exact HP|exact D]).
    rewrite E. apply Z.odd_spec in Op. destruct Op as [h Hh].
    rewrite andb_true_iff, !negb_true_iff, !Z.eqb_neq. rewrite <- (Z.mod_divide m p) by lia.
    pose proof (Z.mod_pos_bound m p Pp) as R. pose proof (Z.div_mod m p ltac:(lia)) as DM.
    assert (E2 : p / 2 = h) by (subst p; symmetry; apply (Z.div_unique (2 * h + 1) 2 h 1); lia). rewrite E2. clear E E2 F HP D I.
    set (r := m mod p) in *. set (d := m / p) in *. clearbody r d.
    split; intros [A B]; (split; [exact A|]); intro C; apply B; clear B.
    - destruct C as [c Hc].
      assert (2 * r + 1 = p * (c - 2 * d)) by nia. assert (c - 2 * d = 1) by nia. lia.
    - exists (2 * d + 1). nia. }
  split; intros G p I; specialize (G p I); now apply K.
Qed.
(** the whole sieve of the generator *)
Definition sieve (m : Z) : bool := forallb (fun t => check_safe m (fst t) (snd t)) (combine prime_products prime_table).
Theorem C40_sieve m : sieve m = true <-> forall p, In p all_primes -> ~ (p | m) /\ ~ (p | 2 * m + 1).
Proof.
  unfold sieve. rewrite forallb_forall. destruct C40_table_products_partial as [_ [D [_ [_ B]]]].
  assert (K : forall t, In t (combine prime_products prime_table) -> check_safe m (fst t) (snd t) = true <-> forall p, In p (snd t) -> ~ (p | m) /\ ~ (p | 2 * m + 1)).
  { intros [P ps] I. cbn [fst snd]. apply C40_check_safe.
    - rewrite Forall_forall in B. specialize (B P). apply in_combine_l in I. specialize (B (or_intror (or_intror I))). lia.
    - intros p J. assert (A : In p all_primes) by (unfold all_primes; apply in_concat; exists ps; split; [now apply in_combine_r in I|exact J]).
      destruct (C40_table_primes p A) as [Pr R]. split; [lia|]. split; [|now apply (D P ps p)].
      destruct (Z.odd p) eqn:O; [reflexivity|]. rewrite <- Z.negb_even in O. apply negb_false_iff, Z.even_spec in O. destruct O as [a Ha].
      destruct (prime_divisors p Pr 2) as [X|[X|[X|X]]]; try lia. exists a. lia. }
  split.
  - intros F p I. unfold all_primes in I. apply in_concat in I. destruct I as [ps [I J]].
    assert (exists P, In (P, ps) (combine prime_products prime_table)) as [P IP].
    { replace prime_table with (map snd (combine prime_products prime_table)) in I by reflexivity. apply in_map_iff in I. destruct I as [[P ps'] [<- I]]. exists P. exact I. }
    apply (proj1 (K _ IP) (F _ IP) p J).
  - intros F t I. apply K; [exact I|]. intros p J. apply F. unfold all_primes. apply in_concat. exists (snd t). split; [|exact J].
    destruct t as [P ps]. now apply in_combine_r in I.
Qed.

(** ** Pocklington's criterion *)
Lemma four_pow_mod9 j : 0 <= j -> 4 ^ (3 * j) mod 9 = 1.
Proof. intro Hj. rewrite Z.pow_mul_r by lia. change (4 ^ 3) with 64. rewrite Zpow_facts.Zpower_mod by lia. change (64 mod 9) with 1. rewrite Z.pow_1_l by lia. reflexivity. Qed.
Lemma order_dvd r q : prime r -> Z.odd r = true -> prime q -> cong r (2 ^ (2 * q)) 1 -> r = 3 \/ (q | r - 1).
Proof.
  intros R Or Q E. pose proof (prime_ge_2 _ R). pose proof (prime_ge_2 _ Q).
  assert (R3 : 3 <= r) by (destruct (Z.eq_dec r 2) as [->|]; [discriminate|lia]).
  destruct (Z.eq_dec (Z.gcd q (r - 1)) 1) as [G|G].
  - left. destruct (invm_some q (r - 1)) as [u [_ [Hu [k Hk]]]]; [lia|exact G|].
    assert (U0 : 0 < u). { destruct (Z.eq_dec u 0) as [->|]; [|lia]. exfalso. assert (k = 0 \/ k <= -1 \/ 1 <= k) by lia. nia. }
    assert (K0 : 0 <= k) by nia.
    assert (G2 : Z.gcd 2 r = 1).
    { apply Zgcd_1_rel_prime. apply rel_prime_sym, prime_rel_prime; [exact R|]. intro D. apply Z.divide_pos_le in D; lia. }
    assert (A : cong r (4 ^ (q * u)) 1).
    { change 4 with (2 ^ 2). rewrite <- Z.pow_mul_r by nia. replace (2 * (q * u)) with (2 * q * u) by ring. rewrite Z.pow_mul_r by lia.
      rewrite (cong_pow _ _ _ u E). rewrite Z.pow_1_l by lia. reflexivity. }
    assert (B : cong r (4 ^ (q * u)) 4).
    { replace (q * u) with ((r - 1) * k + 1) by lia. rewrite Z.pow_add_r, Z.pow_1_r by nia. rewrite Z.pow_mul_r by lia.
      change 4 with (2 * 2) at 1. rewrite Z.pow_mul_l. rewrite (cong_pow r (2 ^ (r - 1) * 2 ^ (r - 1)) 1 k).
      - rewrite Z.pow_1_l by lia. reflexivity.
      - rewrite (fermat r 2 R G2). reflexivity. }
    assert (C : cong r 1 4) by (rewrite <- A; exact B). destruct C as [c Hc]. assert (D : (r | 3)) by (exists (- c); lia).
    apply Z.divide_pos_le in D; lia.
  - right. pose proof (Z.gcd_divide_l q (r - 1)) as D1. pose proof (Z.gcd_divide_r q (r - 1)) as D2. pose proof (Z.gcd_nonneg q (r - 1)).
    destruct (prime_divisors q Q _ D1) as [A|[A|[A|A]]]; try lia. rewrite A in D2. exact D2.
Qed.
Theorem C40_pocklington q : prime q -> cong (2 * q + 1) (2 ^ (2 * q)) 1 -> prime (2 * q + 1).
Proof.
  intros Q E. pose proof (prime_ge_2 _ Q) as Q2. set (p := 2 * q + 1) in *.
  assert (Fac : forall r, prime r -> (r | p) -> r = 3 \/ (q | r - 1)).
  { intros r R D. apply order_dvd; try assumption.
    - destruct (Z.odd r) eqn:O; [reflexivity|]. rewrite <- Z.negb_even in O. apply negb_false_iff, Z.even_spec in O. destruct O as [a ->]. destruct D as [b Hb]. unfold p in Hb. lia.
    - now apply (cong_div p). }
  destruct (lpf_spec p ltac:(unfold p; lia)) as [R [[k Hk] Le]]. pose proof (prime_ge_2 _ R) as R2. set (r := lpf p) in *. clearbody r.
  destruct (Z.eq_dec r p) as [<-|Ne]; [exact R|exfalso].
  assert (K2 : 2 <= k) by nia.
  assert (Big : forall s, prime s -> (s | p) -> s <> 3 -> q + 1 <= s).
  { intros s S D N. destruct (Fac s S D) as [?|D']; [contradiction|]. pose proof (prime_ge_2 _ S). apply Z.divide_pos_le in D'; lia. }
  (* a prime factor of the cofactor *)
  destruct (lpf_spec k ltac:(lia)) as [S [[l Hl] _]]. pose proof (prime_ge_2 _ S) as S2. set (s := lpf k) in *. clearbody s.
  assert (Dr : (r | p)) by (exists k; exact Hk). assert (Ds : (s | p)) by (exists (l * r); rewrite Hk, Hl; ring).
  assert (Hp : p = l * s * r) by (rewrite Hk, Hl; reflexivity). assert (L1 : 1 <= l) by nia.
  destruct (Z.eq_dec r 3) as [->|Nr]; destruct (Z.eq_dec s 3) as [->|Ns].
  - (* 9 divides p *)
    assert (E9 : cong 9 (2 ^ (2 * q)) 1) by (apply (cong_div p); [exists l; lia|exact E]).
    rewrite Z.pow_mul_r in E9 by lia. change (2 ^ 2) with 4 in E9. apply cong_eq in E9; [|lia]. change (1 mod 9) with 1 in E9.
    pose proof (Z.div_mod q 3 ltac:(lia)) as DM. pose proof (Z.mod_pos_bound q 3 ltac:(lia)) as MB.
    pose proof (four_pow_mod9 (q / 3) ltac:(lia)) as F9.
    rewrite DM, Z.pow_add_r, Zmult_mod, F9 in E9 by lia.
    assert (M : q mod 3 = 0). { assert (C : q mod 3 = 0 \/ q mod 3 = 1 \/ q mod 3 = 2) by lia. destruct C as [C|[C|C]]; rewrite C in E9; [exact C|vm_compute in E9; discriminate|vm_compute in E9; discriminate]. }
    assert (D3 : (3 | q)) by (apply Z.mod_divide; lia). destruct (prime_divisors q Q 3 D3) as [A|[A|[A|A]]]; lia.
  - pose proof (Big s S Ds Ns). unfold p in *. nia.
  - pose proof (Big r R Dr Nr). unfold p in *. nia.
  - pose proof (Big r R Dr Nr). pose proof (Big s S Ds Ns). unfold p in *. nia.
Qed.
(** the code's test, given a prime q: it passes exactly when 2q+1 is prime *)
Theorem C40_pocklington_exact q : prime q -> pocklington (2 * q) (2 * q + 1) = true <-> prime (2 * q + 1).
Proof.
  intro Q. pose proof (prime_ge_2 _ Q) as Q2. unfold pocklington. rewrite expm_nonneg by lia. rewrite Z.eqb_eq. split.
  - intro E. apply C40_pocklington; [exact Q|]. apply cong_eq; [lia|]. rewrite E. symmetry. apply Z.mod_small. lia.
  - intro P. replace (2 * q) with (2 * q + 1 - 1) at 1 by lia. assert (G : Z.gcd 2 (2 * q + 1) = 1).
    { apply Zgcd_1_rel_prime, rel_prime_sym, prime_rel_prime; [exact P|]. intro D. apply Z.divide_pos_le in D; lia. }
    pose proof (fermat _ 2 P G) as F. apply cong_eq in F; [|lia]. rewrite F. apply Z.mod_small. lia.
Qed.
(** without the primality of q the test proves nothing: 341 = 2 * 170 + 1 = 11 * 31 passes *)
Theorem C40_pocklington_composite_refuted : pocklington (2 * 170) (2 * 170 + 1) = true /\ ~ prime (2 * 170 + 1).
Proof.
  split; [vm_compute; reflexivity|]. intro P. destruct (prime_divisors _ P 11) as [A|[A|[A|A]]]; try lia. exists 31. lia.
Qed.

(** ** GenerateRandomSafePrime *)
Lemma byte_shape : forallb (fun b => forallb (fun x =>
    let v := Z.lor (Z.land x (2 ^ b - 1)) (3 * 2 ^ (b - 2)) in (3 * 2 ^ (b - 2) <=? v) && (v <? 2 ^ b)) (zseq 0 255)) (zseq 2 8) = true.
Proof. vm_compute. reflexivity. Qed.
Lemma byte_shape1 : forallb (fun x => (Z.lor (Z.land x (2 ^ 1 - 1)) 1 =? 1) && (128 <=? Z.lor x 128) && (Z.lor x 128 <? 256) && (Z.lor x 1 =? x + (if Z.odd x then 0 else 1))) (zseq 0 255) = true.
Proof. vm_compute. reflexivity. Qed.
Lemma bz_in x : In (bz x) (zseq 0 255).
Proof. apply in_zseq; [lia|]. pose proof (bz_range x). lia. Qed.
Lemma set_last_value l x : of_be (set_last (l ++ [x])) = of_be (l ++ [x]) + (if Z.odd (of_be (l ++ [x])) then 0 else 1) /\ length (set_last (l ++ [x])) = length (l ++ [x]).
Proof.
  unfold set_last. rewrite rev_app_distr. cbn [rev app]. rewrite rev_involutive, !of_be_snoc, !app_length. split; [|reflexivity].
  pose proof byte_shape1 as F. rewrite forallb_forall in F. specialize (F _ (bz_in x)). rewrite !andb_true_iff in F. destruct F as [_ F]. apply Z.eqb_eq in F.
  assert (O : Z.odd (of_be l * 256 + bz x) = Z.odd (bz x)) by (rewrite Z.odd_add, Z.odd_mul; change (Z.odd 256) with false; now rewrite andb_false_r, xorb_false_l).
  rewrite O, bz_zb_small; [rewrite F; lia|]. rewrite F. pose proof (bz_range x). destruct (Z.odd (bz x)) eqn:E; [lia|].
  assert (bz x <> 255) by (intro Q; rewrite Q in E; discriminate). lia.
Qed.
Lemma nonempty_snoc {A} (l : list A) : l <> [] -> exists t x, l = t ++ [x].
Proof. intro N. destruct (exists_last N) as [t [x E]]. now exists t, x. Qed.
Lemma shape_value bits bs : 2 <= bits -> length bs = Z.to_nat ((bits + 7) / 8) ->
  Z.odd (of_be (shape bits bs)) = true /\ 3 * 2 ^ (bits - 2) <= of_be (shape bits bs) < 2 ^ bits.
Proof.
  intros Hb L. destruct (top_bits_spec bits ltac:(lia)) as [Tb E]. unfold shape.
  destruct bs as [|x t]; [cbn [length] in L; lia|]. cbn [length] in L.
  set (m := if 2 <=? top_bits bits then _ else _).
  assert (M : m <> [] /\ 3 * 2 ^ (bits - 2) <= of_be m < 2 ^ bits).
  { unfold m. clear m. destruct (Z.leb_spec 2 (top_bits bits)) as [B2|B2].
    - split; [discriminate|]. pose proof byte_shape as F. rewrite forallb_forall in F. specialize (F (top_bits bits)). rewrite in_zseq in F by lia. specialize (F ltac:(lia)).
      rewrite forallb_forall in F. specialize (F _ (bz_in x)). cbv zeta in F. apply andb_true_iff in F. destruct F as [F1 F2]. apply Z.leb_le in F1. apply Z.ltb_lt in F2.
      rewrite of_be_cons. set (v := Z.lor _ _) in *. assert (V : bz (zb v) = v).
      { apply bz_zb_small. assert (2 ^ top_bits bits <= 2 ^ 8) by (apply Z.pow_le_mono_r; lia). change (2 ^ 8) with 256 in *. assert (0 < 2 ^ (top_bits bits - 2)) by (apply Z.pow_pos_nonneg; lia). lia. }
      rewrite V. clearbody v. pose proof (of_be_range t) as R. set (n := Z.of_nat (length t)) in *.
      assert (N : bits = 8 * n + top_bits bits) by lia. change 256 with (2 ^ 8) in *. rewrite <- Z.pow_mul_r in * by lia.
      assert (E1 : 2 ^ bits = 2 ^ top_bits bits * 2 ^ (8 * n)) by (rewrite <- Z.pow_add_r by lia; f_equal; lia).
      assert (E2 : 2 ^ (bits - 2) = 2 ^ (top_bits bits - 2) * 2 ^ (8 * n)) by (rewrite <- Z.pow_add_r by lia; f_equal; lia).
      rewrite E1, E2. clear E1 E2 N E L. set (W := 2 ^ (8 * n)) in *. set (A := 2 ^ (top_bits bits - 2)) in *. set (B := 2 ^ top_bits bits) in *. clearbody W A B. nia.
    - assert (B1 : top_bits bits = 1) by lia. rewrite B1 in *.
      destruct t as [|y t]; [cbn [length] in L; exfalso; lia|]. split; [discriminate|]. cbn [length] in L.
      pose proof byte_shape1 as F. rewrite forallb_forall in F. pose proof (F _ (bz_in x)) as Fx. pose proof (F _ (bz_in y)) as Fy. rewrite !andb_true_iff in Fx, Fy.
      destruct Fx as [[[Fx _] _] _]. destruct Fy as [[[_ F1] F2] _]. apply Z.eqb_eq in Fx. apply Z.leb_le in F1. apply Z.ltb_lt in F2.
      rewrite !of_be_cons, Fx. change (bz (zb 1)) with 1. rewrite bz_zb_small by lia. set (v := Z.lor (bz y) 128) in *. clearbody v.
      pose proof (of_be_range t) as R. cbn [length]. rewrite Nat2Z.inj_succ. set (n := Z.of_nat (length t)) in *.
      rewrite Z.pow_succ_r by lia. assert (N : bits = 8 * n + 9) by lia. rewrite N. change 256 with (2 ^ 8) in *. rewrite <- Z.pow_mul_r in * by lia.
      replace (8 * n + 9 - 2) with (8 * n + 7) by lia. rewrite !Z.pow_add_r by lia. change (2 ^ 8) with 256. change (2 ^ 9) with 512. change (2 ^ 7) with 128.
      clear E L N Fx F. set (W := 2 ^ (8 * n)) in *. clearbody W. nia. }
  clearbody m. destruct M as [N R]. destruct (nonempty_snoc m N) as [t' [z ->]]. destruct (set_last_value t' z) as [V _]. rewrite V.
  assert (Ev : Z.even (2 ^ bits) = true) by (rewrite Z.even_pow by lia; reflexivity).
  destruct (Z.odd (of_be (t' ++ [z]))) eqn:O; [rewrite Z.add_0_r; split; [exact O|lia]|].
  split; [rewrite Z.odd_add, O; reflexivity|]. rewrite <- Z.negb_even in O. apply negb_false_iff in O. apply Z.even_spec in O. apply Z.even_spec in Ev. destruct O as [a Ha], Ev as [c Hc]. lia.
Qed.
Lemma adjust3_spec q : 0 <= q -> Z.odd q = true -> Z.odd (adjust3 q) = true /\ adjust3 q mod 3 = 2 /\ q <= adjust3 q <= q + 4.
Proof.
  intros Hq O. unfold adjust3.
  assert (P0 : 0 < prime3_product) by reflexivity.
  assert (E : (q mod prime3_product) mod 3 = q mod 3) by (symmetry; apply Zmod_div_mod; [lia|exact P0|]; exists 5431526412865007455; reflexivity).
  pose proof (Z.mod_pos_bound q prime3_product P0) as B. rewrite C40_fast_mod3, E by lia. clear E B P0.
  pose proof (Z.div_mod q 3 ltac:(lia)) as DM. pose proof (Z.mod_pos_bound q 3 ltac:(lia)) as MB.
  set (r := q mod 3) in *. set (d := q / 3) in *. clearbody r d.
  destruct (Z.eqb_spec r 1); [|destruct (Z.eqb_spec r 0)].
  - split; [rewrite Z.odd_add, O; reflexivity|]. split; [|lia]. symmetry. apply (Z.mod_unique _ _ (d + 1)); lia.
  - split; [rewrite Z.odd_add, O; reflexivity|]. split; [|lia]. symmetry. apply (Z.mod_unique _ _ d); lia.
  - split; [exact O|]. split; [|lia]. symmetry. apply (Z.mod_unique _ _ d); lia.
Qed.
Lemma in_mul6 n d : In d (map (fun i => 6 * Z.of_nat i) (seq 0 n)) -> exists i, 0 <= i < Z.of_nat n /\ d = 6 * i.
Proof. intro I. apply in_map_iff in I. destruct I as [i [<- I]]. apply in_seq in I. exists (Z.of_nat i). lia. Qed.
Lemma deltas_in d : In d deltas -> exists i, 0 <= i <= 170 /\ d = 6 * i.
Proof. intro I. destruct (in_mul6 171 d I) as [i [Hi E]]. exists i. split; [lia|exact E]. Qed.
Local Opaque deltas.
Lemma try_deltas_inv pp pbits q Q : try_deltas pp pbits q = Some Q -> accept pp pbits Q = true /\ exists i, 0 <= i <= 170 /\ Q = q + 6 * i.
Proof.
  intro T. apply find_some in T. destruct T as [I A]. split; [exact A|]. apply in_map_iff in I. destruct I as [d [Hd I]].
  destruct (deltas_in d I) as [i [Hi ->]]. exists i. split; [exact Hi|]. now rewrite <- Hd.
Qed.
Lemma gen_loop_inv pp fuel pbits s P Q s' : gen_loop pp fuel pbits s = Some (P, Q, s') -> exists pre bs,
  s = pre ++ bs ++ s' /\ length bs = Z.to_nat ((pbits - 1 + 7) / 8) /\ P = 2 * Q + 1 /\ accept pp pbits Q = true /\
  exists i, 0 <= i <= 170 /\ Q = adjust3 (of_be (shape (pbits - 1) bs)) + 6 * i.
Proof.
  revert s. induction fuel as [|f IH]; intros s E; [discriminate|]. cbn [gen_loop] in E.
  destruct (read_full _ s) as [[bs s1]|] eqn:R; [|discriminate]. apply read_full_spec in R. destruct R as [-> L].
  destruct (try_deltas pp pbits _) as [Q0|] eqn:T.
  - injection E as <- <- <-. exists [], bs. split; [reflexivity|]. split; [exact L|]. split; [reflexivity|].
    destruct (try_deltas_inv _ _ _ _ T) as [A [i [Hi HQ]]]. split; [exact A|]. exists i. split; [exact Hi|exact HQ].
  - destruct (IH _ E) as [pre [bs' [-> K]]]. exists (bs ++ pre), bs'. split; [now rewrite <- !app_assoc|exact K].
Qed.
Lemma bitlen_eq z k : 0 < z -> bitlen z = k -> 2 ^ (k - 1) <= z < 2 ^ k.
Proof. intros H <-. now apply bitlen_pow. Qed.
(** what a returned pair satisfies, for every byte stream and every primality oracle *)
Theorem C40_generate pp pbits s P Q s' : generate pp pbits s = Some (P, Q, s') ->
  P = 2 * Q + 1 /\ bitlen P = pbits /\ 3 * 2 ^ (pbits - 2) <= P < 2 ^ pbits /\
  (forall r, prime r -> r <= 996 -> r <> 313 -> r <> 547 -> ~ (r | Q) /\ ~ (r | P)) /\
  pp Q = true /\ (prime Q -> prime P) /\ exists used, s = used ++ s'.
Proof.
  unfold generate. destruct (Z.ltb_spec pbits 3); [discriminate|]. intro E. apply gen_loop_inv in E.
  destruct E as [pre [bs [-> [L [-> [A [i [Hi HQ]]]]]]]].
  destruct (shape_value (pbits - 1) bs ltac:(lia) L) as [O R]. set (q0 := of_be (shape (pbits - 1) bs)) in *. clearbody q0.
  assert (W : 0 < 2 ^ (pbits - 1 - 2) \/ pbits < 3) by (left; apply Z.pow_pos_nonneg; lia).
  destruct (adjust3_spec q0 ltac:(lia) O) as [O1 [M1 R1]]. set (q1 := adjust3 q0) in *. clearbody q1.
  unfold accept in A. rewrite !andb_true_iff in A. destruct A as [[[S K] B] PQ]. apply Z.eqb_eq in B. fold (sieve Q) in S.
  assert (OQ : Z.odd Q = true) by (rewrite HQ, Z.odd_add, O1, Z.odd_mul; reflexivity).
  assert (MQ : Q mod 3 = 2) by (rewrite HQ; replace (q1 + 6 * i) with (q1 + (2 * i) * 3) by ring; rewrite Z.mod_add by lia; exact M1).
  split; [reflexivity|]. split; [exact B|]. pose proof (bitlen_eq (2 * Q + 1) pbits ltac:(lia) B) as BL. split.
  { split; [|lia]. replace (2 ^ (pbits - 2)) with (2 * 2 ^ (pbits - 1 - 2)); [lia|]. rewrite <- Z.pow_succ_r by lia. f_equal. lia. }
  split; [|split; [exact PQ|split]].
  - intros r Pr Le N1 N2. pose proof (prime_ge_2 r Pr) as G2.
    destruct (Z.eq_dec r 2) as [->|Nr2]; [|destruct (Z.eq_dec r 3) as [->|Nr3]].
    + apply Z.odd_spec in OQ. destruct OQ as [c Hc]. split; intros [e He]; lia.
    + pose proof (Z.div_mod Q 3 ltac:(lia)). split; intros [e He]; lia.
    + assert (R5 : 5 <= r). { destruct (Z.eq_dec r 4) as [->|]; [|lia]. destruct (prime_divisors 4 Pr 2) as [X|[X|[X|X]]]; try lia. now exists 2. }
      destruct (C40_table_complete r Pr ltac:(lia)) as [I|[I|I]]; try lia. exact (proj1 (C40_sieve Q) S r I).
  - intro PrQ. apply (C40_pocklington_exact Q PrQ). exact K.
  - exists (pre ++ bs). now rewrite <- app_assoc.
Qed.
(** with a primality test that never errs, the pair is a prime and its safe prime *)
Theorem C40_generate_safe pp pbits s P Q s' : (forall n, pp n = true -> prime n) -> generate pp pbits s = Some (P, Q, s') ->
  prime Q /\ prime P /\ P = 2 * Q + 1 /\ bitlen P = pbits /\ bitlen Q = pbits - 1.
Proof.
  intros S E. destruct (C40_generate _ _ _ _ _ _ E) as [EP [B [R [_ [PQ [I _]]]]]]. pose proof (S _ PQ) as PrQ.
  split; [exact PrQ|]. split; [exact (I PrQ)|]. split; [exact EP|]. split; [exact B|].
  unfold generate in E. destruct (Z.ltb_spec pbits 3); [discriminate|].
  assert (Q0 : 0 < Q) by (pose proof (prime_ge_2 _ PrQ); lia).
  assert (R2 : 2 ^ (pbits - 2) <= Q < 2 ^ (pbits - 1)).
  { assert (E1 : 2 ^ pbits = 2 * 2 ^ (pbits - 1)) by (rewrite <- Z.pow_succ_r by lia; f_equal; lia).
    assert (E2 : 2 ^ (pbits - 1) = 2 * 2 ^ (pbits - 2)) by (rewrite <- Z.pow_succ_r by lia; f_equal; lia). lia. }
  unfold bitlen. destruct (Z.eqb_spec Q 0); [lia|]. rewrite Z.abs_eq by lia.
  assert (LQ : Z.log2 Q = pbits - 2) by (apply Z.log2_unique; [lia|]; replace (Z.succ (pbits - 2)) with (pbits - 1) by lia; exact R2). lia.
Qed.
(** sizes from 3 to 10 bits are accepted by the size check, but no pair is ever returned: the small primes themselves are sieved out *)
Lemma small_none : forallb (fun Q => negb (Z.odd Q && (Q mod 3 =? 2) && sieve Q)) (zseq 2 511) = true.
Proof. vm_compute. reflexivity. Qed.
Theorem C40_generate_small_refuted pp pbits s : 3 <= pbits <= 10 -> generate pp pbits s = None.
Proof.
  intro Hb. destruct (generate pp pbits s) as [[[P Q] s']|] eqn:E; [exfalso|reflexivity].
  pose proof (C40_generate _ _ _ _ _ _ E) as [EP [B [R _]]].
  unfold generate in E. destruct (Z.ltb_spec pbits 3); [discriminate|]. apply gen_loop_inv in E.
  destruct E as [pre [bs [-> [L [_ [A [i [Hi HQ]]]]]]]].
  destruct (shape_value (pbits - 1) bs ltac:(lia) L) as [O R0]. set (q0 := of_be (shape (pbits - 1) bs)) in *. clearbody q0.
  assert (W : 0 < 2 ^ (pbits - 1 - 2)) by (apply Z.pow_pos_nonneg; lia).
  destruct (adjust3_spec q0 ltac:(lia) O) as [O1 [M1 R1]]. set (q1 := adjust3 q0) in *. clearbody q1.
  unfold accept in A. rewrite !andb_true_iff in A. destruct A as [[[S K] _] PQ]. fold (sieve Q) in S.
  assert (OQ : Z.odd Q = true) by (rewrite HQ, Z.odd_add, O1, Z.odd_mul; reflexivity).
  assert (MQ : Q mod 3 = 2) by (rewrite HQ; replace (q1 + 6 * i) with (q1 + (2 * i) * 3) by ring; rewrite Z.mod_add by lia; exact M1).
  assert (Q2 : 2 <= Q) by (clear - MQ HQ R1 R0 W Hi; lia).
  assert (Le : 2 ^ pbits <= 2 ^ 10) by (apply Z.pow_le_mono_r; lia). change (2 ^ 10) with 1024 in Le.
  pose proof small_none as F. rewrite forallb_forall in F. specialize (F Q). rewrite in_zseq in F by lia. specialize (F ltac:(lia)).
  rewrite OQ, MQ, S in F. discriminate.
Qed.
(** the first size that works *)
Theorem C40_generate_ex : generate (fun _ => true) 11 (map zb [3; 245; 7]) = Some (2027, 1013, map zb [7]).
Proof. vm_compute. reflexivity. Qed.

(** ** common/safe_prime.go: candidates and validation *)
Theorem C40_candidate n : 0 <= n -> is_candidate n = true <-> forall r, In r small_primes -> (r | n) -> n mod small_product = r.
Proof.
  intro Hn. unfold is_candidate. rewrite forallb_forall.
  assert (K : forall r, In r small_primes -> 0 < r /\ (n mod small_product) mod r = n mod r).
  { intros r I. assert (F : forallb (fun r => (0 <? r) && (small_product mod r =? 0)) small_primes = true) by (vm_compute; reflexivity).
    rewrite forallb_forall in F. specialize (F r I). split; [lia|]. symmetry. apply Zmod_div_mod; [lia|reflexivity|]. apply Z.mod_divide; lia. }
  split.
  - intros F r I D. specialize (F r I). destruct (K r I) as [R0 E]. rewrite E in F. apply Z.mod_divide in D; [|lia]. rewrite D in F. cbn in F. rewrite negb_involutive in F. now apply Z.eqb_eq.
  - intros F r I. destruct (K r I) as [R0 E]. rewrite E. destruct (Z.eqb_spec (n mod r) 0) as [D|D]; [|reflexivity].
    apply Z.mod_divide in D; [|lia]. rewrite (F r I D), Z.eqb_refl. reflexivity.
Qed.
(** so a number above the product can have a small factor and pass *)
Theorem C40_candidate_refuted : is_candidate (small_product + 3) = true /\ (3 | small_product + 3).
Proof. split; [vm_compute; reflexivity|]. exists ((small_product + 3) / 3). reflexivity. Qed.
Theorem C40_validate pp q p : (forall n, pp n = true -> prime n) -> validate pp q p = Ret true ->
  exists q' p', q = Some q' /\ p = Some p' /\ prime q' /\ prime p' /\ p' = 2 * q' + 1.
Proof.
  intros S. unfold validate. destruct q as [q|]; [|discriminate]. destruct (pp q) eqn:PQ; [|discriminate]. destruct p as [p|]; [|discriminate].
  intro E. injection E as E. apply andb_true_iff in E. destruct E as [E1 E2]. apply Z.eqb_eq in E1. exists q, p. auto 10.
Qed.
Theorem C40_validate_complete pp q p : (forall n, prime n -> pp n = true) -> prime q -> prime p -> p = 2 * q + 1 -> validate pp (Some q) (Some p) = Ret true.
Proof. intros C Q P ->. unfold validate. rewrite (C q Q), (C _ P), Z.eqb_refl. reflexivity. Qed.
(** Set(nil, q) followed by Validate panics when q is prime *)
Theorem C40_validate_nil_refuted pp q : pp q = true -> validate pp (Some q) None = Panic.
Proof. intro H. unfold validate. now rewrite H. Qed.
