(** PropGmr.v -- property C50: the Gennaro-Micciancio-Rabin proof for a Paillier modulus. *)
From Verif Require Import Base BigInt HashFrame Text NumTh Euler Carmichael Paillier PropPaillier RangeProofs Random Jacobi PropPrimes PropRingPed Gmr.
From Coq Require Import Znumtheory.

(** the list used for trial division is the list of all primes up to 1000 *)
Lemma in_until p : In p until_1000 <-> prime p /\ p <= 1000.
Proof.
  unfold until_1000. rewrite filter_In, in_zseq by lia. unfold prime_upto_1000. split.
  - intros [R F]. split; [apply small_prime; [lia|exact F]|lia].
  - intros [P L]. pose proof (prime_ge_2 _ P). split; [lia|]. apply forallb_forall. intros d D. rewrite in_zseq in D by lia.
    destruct (Z.eqb_spec (p mod d) 0) as [E|E]; [|reflexivity]. cbn [negb orb]. apply Z.mod_divide in E; [|lia].
    destruct (prime_divisors p P d E) as [A|[A|[A|A]]]; lia.
Qed.
Theorem C50_trial N : gmr_no_small_factor N = true <-> forall p, prime p -> p <= 1000 -> ~ (p | N).
Proof.
  unfold gmr_no_small_factor. rewrite forallb_forall. split.
  - intros F p P L D. pose proof (prime_ge_2 _ P). specialize (F p (proj2 (in_until p) (conj P L))). apply Z.mod_divide in D; [|lia]. rewrite D in F. discriminate.
  - intros F p I. apply in_until in I. destruct I as [P L]. pose proof (prime_ge_2 _ P). destruct (Z.eqb_spec (N mod p) 0) as [E|E]; [|reflexivity]. exfalso. apply (F p P L). apply Z.mod_divide; lia.
Qed.
Local Opaque until_1000.
Lemma in_group_iff n v : in_group (Some n) (Some v) = true <-> 1 <= v < n /\ Z.gcd v n = 1.
Proof.
  cbn [in_group]. rewrite !andb_true_iff, Z.eqb_eq, !Z.ltb_lt, Z.leb_le. intuition lia.
Qed.
Lemma f2_len {A B} (R : A -> B -> Prop) l l' : Forall2 R l l' -> length l = length l'.
Proof. induction 1; cbn; lia. Qed.
Section G.
  Variable H : bytes -> bytes.
  Notation xs_of := (generate_xs H).

  Lemma gx_inv fuel k N X Y i n todo l : gx_loop H fuel k N X Y i n todo = Some l -> 0 <= n ->
    length l = todo /\ Forall (fun x => 1 <= x < N /\ Z.gcd x N = 1) l /\ (forall j x, nth_error l j = Some x -> exists c, n <= c /\ x = gx_candidate H k N X Y (i + Z.of_nat j) c).
  Proof.
    revert i n todo l. induction fuel as [|f IH]; intros i n todo l E Hn.
    - destruct todo; [|discriminate]. assert (l = []) by (cbn in E; congruence). subst l. split; [reflexivity|]. split; [constructor|]. intros [|j] x A; discriminate.
    - destruct todo as [|t]; [assert (l = []) by (cbn in E; congruence); subst l; split; [reflexivity|]; split; [constructor|]; intros [|j] x A; discriminate|].
      cbn [gx_loop] in E. destruct (in_group _ _) eqn:G.
      + destruct (gx_loop H f k N X Y (i + 1) n t) as [l'|] eqn:E'; [|discriminate]. assert (l = gx_candidate H k N X Y i n :: l') by congruence. subst l.
        destruct (IH _ _ _ _ E' Hn) as [L [F C]]. split; [cbn; lia|]. split; [constructor; [now apply in_group_iff|exact F]|]. intros [|j] x A.
        * cbn in A. exists n. split; [lia|]. replace (i + Z.of_nat 0) with i by lia. congruence.
        * cbn in A. destruct (C j x A) as [c [Hc ->]]. exists c. split; [lia|]. f_equal. lia.
      + destruct (IH _ _ _ _ E ltac:(lia)) as [L [F C]]. split; [exact L|]. split; [exact F|]. intros j x A. destruct (C j x A) as [c [Hc E2]]. exists c. split; [lia|exact E2].
  Qed.
  Lemma gx_mono fuel fuel' k N X Y i n todo l : (fuel <= fuel')%nat -> gx_loop H fuel k N X Y i n todo = Some l -> gx_loop H fuel' k N X Y i n todo = Some l.
  Proof.
    revert fuel' i n todo l. induction fuel as [|f IH]; intros fuel' i n todo l Hf E.
    - destruct todo; [|discriminate]. destruct fuel'; exact E.
    - destruct fuel' as [|f']; [lia|]. destruct todo as [|t]; [exact E|]. cbn [gx_loop] in *. destruct (in_group _ _).
      + destruct (gx_loop H f k N X Y (i + 1) n t) as [l'|] eqn:E'; [|discriminate]. now rewrite (IH f' _ _ _ _ ltac:(lia) E').
      + apply IH; [lia|exact E].
  Qed.
  (** the challenges: exactly m of them, all units modulo N, the j-th one a digest of its index, the counter, the session value, the public key and N; they do not depend on the fuel *)
  Theorem C50_challenges fuel m k N X Y l : xs_of fuel m k N X Y = Some l ->
    length l = m /\ Forall (fun x => 1 <= x < N /\ Z.gcd x N = 1) l /\
    (forall j x, nth_error l j = Some x -> exists c, 0 <= c /\
       x = of_be (concat (map (fun b => H (frame [itoa (Z.of_nat j); itoa b; itoa c; to_be k; to_be X; to_be Y; to_be N])) (zseq 0 ((bitlen N + 255) / 256 - 1))))) /\
    (forall fuel' l', xs_of fuel' m k N X Y = Some l' -> l' = l).
  Proof.
    intro E. destruct (gx_inv _ _ _ _ _ _ _ _ _ E ltac:(lia)) as [L [F C]]. split; [exact L|]. split; [exact F|]. split.
    - intros j x A. destruct (C j x A) as [c [Hc E2]]. exists c. split; [exact Hc|]. exact E2.
    - intros f' l' E'. pose proof (gx_mono _ (max fuel f') _ _ _ _ _ _ _ _ (Nat.le_max_l _ _) E) as A. pose proof (gx_mono _ (max fuel f') _ _ _ _ _ _ _ _ (Nat.le_max_r _ _) E') as B. congruence.
  Qed.
  (** ** exact acceptance *)
  Lemma check_true N xs pf : 0 < N -> gmr_check N xs pf = Ret true <->
    exists ys, (exists rest, pf = map Some ys ++ rest) /\ Forall2 (fun x y => cong N (y ^ N) x) xs ys.
  Proof.
    intro HN. revert pf. induction xs as [|x xs IH]; intro pf.
    - cbn [gmr_check]. split; [intros _; exists []; split; [now exists pf|constructor]|reflexivity].
    - destruct pf as [|[y|] pf]; cbn [gmr_check].
      + split; [discriminate|]. intros [ys [[r E] F]]. inversion F; subst. discriminate.
      + rewrite powm_eq by lia. destruct (Z.eqb_spec (x mod N) (y ^ N mod N)) as [E|E].
        * rewrite IH. split.
          -- intros [ys [[r ->] F]]. exists (y :: ys). split; [now exists r|]. constructor; [|exact F]. apply cong_eq; [lia|]. now symmetry.
          -- intros [ys [[r Er] F]]. inversion F as [|? y' ? ys' C F']; subst. cbn in Er. assert (pf = map Some ys' ++ r) by congruence. exists ys'. split; [now exists r|exact F'].
        * split; [discriminate|]. intros [ys [[r Er] F]]. inversion F as [|? y' ? ys' C F']; subst. cbn in Er. assert (y = y') by congruence. subst y'. apply cong_eq in C; [|lia]. symmetry in C. contradiction.
      + split; [discriminate|]. intros [ys [[r Er] F]]. inversion F; subst. discriminate.
  Qed.
  Definition accepts (pf : list (option Z)) (N k X Y : Z) : Prop := exists fuel first, gmr_verify H fuel first pf N k X Y = Some (Ret true).
  Theorem C50_verify pf N k X Y : length pf = 13%nat -> accepts pf N k X Y <->
    (forall p, prime p -> p <= 1000 -> ~ (p | N)) /\ exists fuel xs ys, xs_of fuel 13 k N X Y = Some xs /\ pf = map Some ys /\ Forall2 (fun x y => cong N (y ^ N) x) xs ys.
  Proof.
    intro L. rewrite <- C50_trial. unfold accepts, gmr_verify. split.
    - intros [fuel [first E]].
      assert (A : gmr_no_small_factor N = true /\ exists xs, xs_of fuel proof_iters k N X Y = Some xs /\ gmr_check N xs pf = Ret true).
      { destruct first.
        - destruct (gmr_no_small_factor N); [|discriminate]. split; [reflexivity|]. destruct (xs_of fuel proof_iters k N X Y) as [xs|]; [|discriminate]. exists xs. split; [reflexivity|congruence].
        - destruct (xs_of fuel proof_iters k N X Y) as [xs|]; [|discriminate]. destruct (gmr_check N xs pf) as [[]|] eqn:C; try discriminate. split; [congruence|]. exists xs. now split. }
      destruct A as [T [xs [E1 E2]]]. split; [exact T|]. exists fuel, xs. destruct (C50_challenges _ _ _ _ _ _ _ E1) as [L1 [F _]].
      assert (HN : 0 < N). { destruct xs as [|x xs]; [discriminate|]. inversion F; subst. lia. }
      apply check_true in E2; [|exact HN]. destruct E2 as [ys [[r Er] F2]]. exists ys. split; [exact E1|]. split; [|exact F2].
      assert (length r = 0)%nat. { apply (f_equal (@length _)) in Er. rewrite app_length, map_length, <- (f2_len _ _ _ F2), L, L1 in Er. unfold proof_iters in Er. lia. }
      destruct r; [|discriminate]. now rewrite app_nil_r in Er.
    - intros [T [fuel [xs [ys [E1 [-> F2]]]]]]. exists fuel, true. rewrite T. change proof_iters with 13%nat. rewrite E1. do 2 f_equal.
      destruct (C50_challenges _ _ _ _ _ _ _ E1) as [L1 [F _]]. assert (HN : 0 < N). { destruct xs as [|x xs]; [discriminate|]. inversion F; subst. lia. }
      apply check_true; [exact HN|]. exists ys. split; [exists []; now rewrite app_nil_r|exact F2].
  Qed.
  (** for proofs without nil entries the order in which the two goroutines deliver does not matter, as far as both orders return *)
  Theorem C50_schedule_partial fuel ys N k X Y r r' : (13 <= length ys)%nat ->
    gmr_verify H fuel true (map Some ys) N k X Y = Some r -> gmr_verify H fuel false (map Some ys) N k X Y = Some r' -> r = r' /\ exists b, r = Ret b.
  Proof.
    intros L E1 E2. unfold gmr_verify in *. destruct (xs_of fuel proof_iters k N X Y) as [xs|] eqn:E; [|discriminate].
    destruct (C50_challenges _ _ _ _ _ _ _ E) as [L1 _].
    assert (T : exists b, gmr_check N xs (map Some ys) = Ret b).
    { assert (L2 : (length xs <= length ys)%nat) by (rewrite L1; exact L). clear - L2. revert ys L2. induction xs as [|x xs IH]; intros [|y ys] L2; cbn [length] in L2; try lia; cbn [map gmr_check]; [now exists true|now exists true|].
      destruct (_ =? _); [apply IH; lia|now exists false]. }
    destruct T as [b T]. rewrite T in *. destruct (gmr_no_small_factor N), b; (split; [congruence|]); eexists; symmetry; eapply Some_inj; eassumption.
  Qed.
  (** ** completeness *)
  Theorem C50_complete fuel p q k X Y first r : good_primes p q -> 1000 < p -> 1000 < q -> gmr_proof H fuel (key_of p q) k X Y = Some r ->
    exists ys, r = Ret ys /\ length ys = 13%nat /\ gmr_verify H fuel first (map Some ys) (p * q) k X Y = Some (Ret true).
  Proof.
    intros GP Lp Lq E. unfold gmr_proof in E. cbn [pk_n pk_phi key_of] in E. destruct (xs_of fuel proof_iters k (p * q) X Y) as [xs|] eqn:Ex; [|discriminate].
    pose proof GP as [P Q NE _ _ _]. pose proof (good_gcd _ _ GP) as G. assert (F0 : 0 < (p - 1) * (q - 1)) by nia.
    destruct (invm_some (p * q) ((p - 1) * (q - 1)) F0 G) as [d [Ed [Rd C]]]. rewrite Ed in E.
    exists (map (fun x => powm x d (p * q)) xs). split; [congruence|]. destruct (C50_challenges _ _ _ _ _ _ _ Ex) as [L1 [F _]]. split; [now rewrite map_length|].
    assert (N0 : 0 < p * q) by nia.
    assert (T : gmr_no_small_factor (p * q) = true).
    { apply C50_trial. intros r' R Lr D. destruct (prime_mult _ R _ _ D) as [D'|D'].
      - pose proof (prime_ge_2 _ R). destruct (prime_divisors p P r' D') as [A|[A|[A|A]]]; lia.
      - pose proof (prime_ge_2 _ R). destruct (prime_divisors q Q r' D') as [A|[A|[A|A]]]; lia. }
    assert (CH : gmr_check (p * q) xs (map Some (map (fun x => powm x d (p * q)) xs)) = Ret true).
    { apply check_true; [exact N0|]. exists (map (fun x => powm x d (p * q)) xs). split; [exists []; now rewrite app_nil_r|].
      assert (F2 : 2 <= (p - 1) * (q - 1)) by nia. clear - F N0 P Q NE Rd C F0 F2. induction F as [|x xs [R G] F IH]; cbn [map]; constructor; [|exact IH].
      rewrite powm_eq by lia. rewrite (cong_pow _ _ _ (p * q) (cong_mod (p * q) (x ^ d) N0)).
      destruct C as [c Hc]. assert (C0 : 0 <= c). { assert (0 <= p * q * d) by nia. destruct (Z_lt_le_dec c 0) as [CN|CN]; [|exact CN]. exfalso. assert (c * ((p - 1) * (q - 1)) <= -1 * ((p - 1) * (q - 1))) by (apply Z.mul_le_mono_nonneg_r; lia). lia. }
      rewrite <- Z.pow_mul_r by lia.
      replace (d * (p * q)) with ((p - 1) * (q - 1) * c + 1) by lia. rewrite Z.pow_add_r, Z.pow_1_r by nia. rewrite Z.pow_mul_r by nia.
      rewrite (cong_pow _ _ _ c (euler_pq p q x P Q NE G)). rewrite Z.pow_1_l by lia. now rewrite Z.mul_1_l. }
    unfold gmr_verify. rewrite Ex, T, CH. now destruct first.
  Qed.
  (** ** soundness: an accepted modulus that is not coprime to its totient forces every challenge into a proper subgroup *)
  Theorem C50_square_factor pf N k X Y p : length pf = 13%nat -> accepts pf N k X Y -> prime p -> (p * p | N) ->
    1000 < p /\ forall fuel xs, xs_of fuel 13 k N X Y = Some xs -> Forall (fun x => cong (p * p) (x ^ (p - 1)) 1) xs.
  Proof.
    intros L A P D. apply C50_verify in A; [|exact L]. destruct A as [T [fuel [xs [ys [E [-> F2]]]]]]. assert (D1 : (p | N)) by (destruct D as [c ->]; exists (c * p); ring).
    split. { destruct (Z_lt_le_dec 1000 p); [assumption|]. exfalso. now apply (T p). }
    intros f' xs' E'. destruct (C50_challenges _ _ _ _ _ _ _ E) as [_ [F [_ U]]]. rewrite (U _ _ E'). clear f' xs' E' U E L T.
    pose proof (prime_ge_2 _ P) as P2. induction F2 as [|x y xs ys C F2 IH]; constructor; inversion F as [|? ? [R G] F']; subst; [|now apply IH].
    assert (N0 : 0 < N) by lia. destruct D1 as [c Hc]. assert (C0 : 0 <= c) by nia.
    assert (C2 : cong (p * p) x (y ^ N)) by (apply (cong_div N); [exact D|]; symmetry; exact C). rewrite (cong_pow _ _ _ (p - 1) C2).
    rewrite <- Z.pow_mul_r by lia. replace (N * (p - 1)) with (p * (p - 1) * c) by (rewrite Hc; ring). rewrite Z.pow_mul_r by nia.
    assert (Gy : Z.gcd y p = 1).
    { pose proof (gcd_cong _ _ _ C) as GC. rewrite G in GC. destruct (Z.eq_dec (Z.gcd y p) 1) as [|NG]; [assumption|exfalso].
      assert (Dy : (p | y)). { destruct (prime_divisors p P (Z.gcd y p) (Z.gcd_divide_r _ _)) as [Z1|[Z1|[Z1|Z1]]]; pose proof (Z.gcd_nonneg y p); try lia. rewrite <- Z1. apply Z.gcd_divide_l. }
      assert (DN : (p | N)) by (exists c; exact Hc).
      assert (p | Z.gcd (y ^ N) N). { apply Z.gcd_greatest; [|exact DN]. destruct Dy as [e ->]. replace N with (N - 1 + 1) by lia. rewrite Z.pow_add_r, Z.pow_1_r by lia. exists ((e * p) ^ (N - 1) * e). ring. }
      rewrite GC in H0. apply Z.divide_1_r in H0. lia. }
    rewrite (cong_pow _ _ _ c (fermat_sq p y P Gy)). rewrite Z.pow_1_l by lia. reflexivity.
  Qed.
  Theorem C50_totient_factor pf N k X Y p q : length pf = 13%nat -> accepts pf N k X Y -> prime p -> prime q -> (p | N) -> (q | N) -> (p | q - 1) ->
    1000 < p /\ forall fuel xs, xs_of fuel 13 k N X Y = Some xs -> Forall (fun x => cong q (x ^ ((q - 1) / p)) 1) xs.
  Proof.
    intros L A P Q D1 D2 D3. apply C50_verify in A; [|exact L]. destruct A as [T [fuel [xs [ys [E [-> F2]]]]]].
    split. { destruct (Z_lt_le_dec 1000 p); [assumption|]. exfalso. now apply (T p). }
    intros f' xs' E'. destruct (C50_challenges _ _ _ _ _ _ _ E) as [_ [F [_ U]]]. rewrite (U _ _ E'). clear f' xs' E' U E L T.
    pose proof (prime_ge_2 _ P) as P2. pose proof (prime_ge_2 _ Q) as Q2. induction F2 as [|x y xs ys C F2 IH]; constructor; inversion F as [|? ? [R G] F']; subst; [|now apply IH].
    assert (N0 : 0 < N) by lia. destruct D1 as [c Hc]. assert (C0 : 0 <= c) by nia. destruct D3 as [e He]. assert (E0 : 0 <= e) by nia.
    rewrite He, Z.div_mul by lia.
    assert (C2 : cong q x (y ^ N)) by (apply (cong_div N); [exact D2|]; symmetry; exact C). rewrite (cong_pow _ _ _ e C2).
    rewrite <- Z.pow_mul_r by lia. replace (N * e) with ((q - 1) * c) by (rewrite Hc, He; ring). rewrite Z.pow_mul_r by lia.
    assert (Gy : Z.gcd y q = 1).
    { pose proof (gcd_cong _ _ _ C) as GC. rewrite G in GC. destruct (Z.eq_dec (Z.gcd y q) 1) as [|NG]; [assumption|exfalso].
      assert (Dy : (q | y)). { destruct (prime_divisors q Q (Z.gcd y q) (Z.gcd_divide_r _ _)) as [Z1|[Z1|[Z1|Z1]]]; pose proof (Z.gcd_nonneg y q); try lia. rewrite <- Z1. apply Z.gcd_divide_l. }
      assert (q | Z.gcd (y ^ N) N). { apply Z.gcd_greatest; [|exact D2]. destruct Dy as [e' ->]. replace N with (N - 1 + 1) by lia. rewrite Z.pow_add_r, Z.pow_1_r by lia. exists ((e' * q) ^ (N - 1) * e'). ring. }
      rewrite GC in H0. apply Z.divide_1_r in H0. lia. }
    rewrite (cong_pow _ _ _ c (fermat q y Q Gy)). rewrite Z.pow_1_l by lia. reflexivity.
  Qed.
  (** ** what fails *)
  Lemma gx_never fuel k N X Y i n t : N <= 1 -> gx_loop H fuel k N X Y i n (S t) = None.
  Proof.
    intro HN. revert i n. induction fuel as [|f IH]; intros i n; [reflexivity|]. cbn [gx_loop]. destruct (in_group _ _) eqn:G; [apply in_group_iff in G; lia|apply IH].
  Qed.
  (** Verify never returns for the modulus 1 (or -1), whatever the proof and the schedule; with a modulus at most 1 the challenge goroutine spins forever *)
  Theorem C50_hang_refuted fuel first pf k X Y : gmr_verify H fuel first pf 1 k X Y = None /\ gmr_verify H fuel first pf (-1) k X Y = None.
  Proof.
    assert (U : forall N, N <= 1 -> (N | 1) -> gmr_verify H fuel first pf N k X Y = None).
    { intros N HN D. unfold gmr_verify, generate_xs, proof_iters. rewrite gx_never by exact HN. destruct first; [|reflexivity].
      replace (gmr_no_small_factor N) with true; [reflexivity|]. symmetry. apply C50_trial. intros p P _ D'. pose proof (prime_ge_2 _ P). assert (D2 : (p | 1)) by (eapply Z.divide_trans; eassumption). apply Z.divide_1_r in D2. lia. }
    split; apply U; try lia; [exists 1; reflexivity|exists (-1); reflexivity].
  Qed.
  Theorem C50_spin_refuted fuel N k X Y m : N <= 1 -> xs_of fuel (S m) k N X Y = None.
  Proof. apply gx_never. Qed.
  (** with a nil entry and a modulus with a small factor the outcome depends on the schedule: rejection or panic *)
  Theorem C50_nil_race_refuted fuel N k X Y xs : xs_of fuel 13 k N X Y = Some xs -> (2 | N) ->
    gmr_verify H fuel true (repeat None 13) N k X Y = Some (Ret false) /\ gmr_verify H fuel false (repeat None 13) N k X Y = Some Panic.
  Proof.
    intros E D. unfold gmr_verify. change proof_iters with 13%nat. rewrite E. replace (gmr_no_small_factor N) with false; [split; [reflexivity|]|].
    - destruct (C50_challenges _ _ _ _ _ _ _ E) as [L _]. destruct xs; [discriminate|]. reflexivity.
    - symmetry. destruct (gmr_no_small_factor N) eqn:T; [|reflexivity]. exfalso. rewrite C50_trial in T. apply (T 2 prime_2); [lia|exact D].
  Qed.
End G.
(** a run with the primes 1009 and 1013 and a constant digest: the proof exists and is accepted in both orders, and the challenges are what they should be *)
Theorem C50_example : good_primes 1009 1013 /\ generate_xs (fun _ => [zb 3]) 13 13 1 (1009 * 1013) 2 5 = Some (repeat 3 13) /\
  exists ys, gmr_proof (fun _ => [zb 3]) 13 (key_of 1009 1013) 1 2 5 = Some (Ret ys) /\
    gmr_verify (fun _ => [zb 3]) 13 true (map Some ys) (1009 * 1013) 1 2 5 = Some (Ret true) /\ gmr_verify (fun _ => [zb 3]) 13 false (map Some ys) (1009 * 1013) 1 2 5 = Some (Ret true).
Proof.
  assert (GP : good_primes 1009 1013).
  { constructor; [apply small_prime; [lia|reflexivity]|apply small_prime; [lia|reflexivity]|lia|reflexivity|reflexivity|]. exists 9. cbn. lia. }
  split; [exact GP|]. split; [reflexivity|].
  assert (E : exists r, gmr_proof (fun _ => [zb 3]) 13 (key_of 1009 1013) 1 2 5 = Some r).
  { unfold gmr_proof. cbn [pk_n key_of]. change (generate_xs (fun _ => [zb 3]) proof_iters proof_iters 1 (1009 * 1013) 2 5) with (Some (repeat 3 13)). eexists. reflexivity. }
  destruct E as [r E]. destruct (C50_complete _ _ _ _ _ _ _ true r GP ltac:(lia) ltac:(lia) E) as [ys [-> [_ V]]]. exists ys. split; [exact E|]. split; [exact V|].
  destruct (C50_complete _ _ _ _ _ _ _ false _ GP ltac:(lia) ltac:(lia) E) as [ys' [E' [_ V']]]. assert (ys' = ys) by congruence. subst ys'. exact V'.
Qed.
(** the nil-entry race happens: an even modulus with challenges *)
Theorem C50_nil_race_ex : generate_xs (fun _ => [zb 3]) 13 13 1 (2 * 1009) 2 5 = Some (repeat 3 13) /\ (2 | 2 * 1009).
Proof. split; [reflexivity|]. exists 1009. reflexivity. Qed.
