(** AbZ.v -- integer multiples in an abelian group, and a finite one of prime order (pure mathematics, no Go code modelled here). *)
From Verif Require Import Base AbGroup.
From Coq Require Import Znumtheory Permutation Morphisms.

Section AbZ.
  Variable A : Type.
  Variables (add : A -> A -> A) (zero : A) (neg : A -> A).
  Hypothesis comm : forall a b, add a b = add b a.
  Hypothesis assoc : forall a b c, add (add a b) c = add a (add b c).
  Hypothesis id_l : forall a, add zero a = a.
  Hypothesis inv : forall a, add a (neg a) = zero.
  Infix "+" := add.
  Notation nm := (nm A add zero).
  Notation id_r := (id_r A add zero comm id_l).
  Notation cancel_l := (cancel_l A add zero neg comm assoc id_l inv).
  Notation nm_add := (nm_add A add zero assoc id_l).

  Definition zm (k : Z) (a : A) : A := nm (Z.to_nat k) a + neg (nm (Z.to_nat (- k)) a).
  Lemma neg_u a b : a + b = zero -> b = neg a. Proof. intro H. apply (cancel_l a). now rewrite H, inv. Qed.
  Lemma neg_0 : neg zero = zero. Proof. symmetry. apply neg_u, id_l. Qed.
  Lemma neg_inv a : neg (neg a) = a. Proof. symmetry. apply neg_u. rewrite comm. apply inv. Qed.
  Lemma swap4 a b c d : (a + b) + (c + d) = (a + c) + (b + d).
  Proof. rewrite !assoc. f_equal. rewrite <- !assoc. f_equal. apply comm. Qed.
  Lemma neg_add' a b : neg (a + b) = neg a + neg b.
  Proof. symmetry. apply neg_u. rewrite swap4, !inv. apply id_l. Qed.
  Lemma nm_sum k a b : nm k (a + b) = nm k a + nm k b.
  Proof. induction k as [|k IH]; cbn [AbGroup.nm]; [now rewrite id_l|]. rewrite IH. apply swap4. Qed.
  Lemma zm_nat k a : zm (Z.of_nat k) a = nm k a.
  Proof. unfold zm. rewrite Nat2Z.id. replace (Z.to_nat (- Z.of_nat k)) with O by lia. cbn [AbGroup.nm]. rewrite neg_0. apply id_r. Qed.
  Lemma zm_pos k a : 0 <= k -> zm k a = nm (Z.to_nat k) a. Proof. intro H. rewrite <- (Z2Nat.id k H) at 1. apply zm_nat. Qed.
  Lemma zm_diff m n a : zm (Z.of_nat m - Z.of_nat n) a = nm m a + neg (nm n a).
  Proof.
    destruct (Nat.le_ge_cases n m) as [L|L].
    - replace (Z.of_nat m - Z.of_nat n)%Z with (Z.of_nat (m - n)) by lia. rewrite zm_nat. replace m with ((m - n) + n)%nat at 2 by lia. rewrite nm_add, assoc, inv. symmetry. apply id_r.
    - unfold zm. replace (Z.to_nat (Z.of_nat m - Z.of_nat n)) with O by lia. replace (Z.to_nat (- (Z.of_nat m - Z.of_nat n))) with (n - m)%nat by lia. cbn [AbGroup.nm]. rewrite id_l.
      replace n with ((n - m) + m)%nat at 2 by lia. rewrite nm_add, neg_add', (comm (neg _) (neg (nm m a))), <- assoc, inv. symmetry. apply id_l.
  Qed.
  Lemma zm_add j k a : zm (j + k) a = zm j a + zm k a.
  Proof.
    replace (j + k)%Z with (Z.of_nat (Z.to_nat j + Z.to_nat k) - Z.of_nat (Z.to_nat (- j) + Z.to_nat (- k)))%Z by lia.
    rewrite zm_diff, !nm_add, neg_add'. apply swap4.
  Qed.
  Lemma zm_0 a : zm 0 a = zero. Proof. apply (zm_nat 0). Qed.
  Lemma zm_1 a : zm 1 a = a. Proof. change (zm (Z.of_nat 1) a = a). rewrite zm_nat. cbn. apply id_r. Qed.
  Lemma zm_opp k a : zm (- k) a = neg (zm k a). Proof. apply neg_u. rewrite <- zm_add, Z.add_opp_diag_r. apply zm_0. Qed.
  Lemma zm_zero k : zm k zero = zero.
  Proof. unfold zm. rewrite !(nm_zero A add zero id_l), neg_0. apply id_l. Qed.
  Lemma zm_sum k a b : zm k (a + b) = zm k a + zm k b.
  Proof. unfold zm. rewrite !nm_sum, neg_add'. apply swap4. Qed.
  Lemma zm_neg k a : zm k (neg a) = neg (zm k a).
  Proof. apply neg_u. rewrite <- zm_sum, inv. apply zm_zero. Qed.
  Lemma zm_mul_nat j k a : zm (Z.of_nat j * k) a = nm j (zm k a).
  Proof. induction j as [|j IH]; [apply zm_0|]. cbn [AbGroup.nm]. rewrite <- IH, <- zm_add. f_equal. lia. Qed.
  Lemma zm_mul j k a : zm (j * k) a = zm j (zm k a).
  Proof.
    destruct (Z_le_gt_dec 0 j) as [L|L].
    - rewrite (zm_pos j) by lia. rewrite <- zm_mul_nat. rewrite Z2Nat.id by lia. reflexivity.
    - replace (j * k)%Z with (- ((- j) * k))%Z by ring. rewrite zm_opp. replace j with (- - j)%Z at 2 by lia. rewrite (zm_opp (- j)). f_equal.
      rewrite (zm_pos (- j)) by lia. rewrite <- zm_mul_nat. rewrite Z2Nat.id by lia. reflexivity.
  Qed.
  Lemma zm_2 a : zm 2 a = a + a. Proof. change 2 with (1 + 1)%Z. now rewrite zm_add, zm_1. Qed.
  Lemma zm_kill n a k : zm n a = zero -> zm (n * k) a = zero.
  Proof. intro H. rewrite Z.mul_comm, zm_mul, H. apply zm_zero. Qed.
  Lemma zm_mod n a k : zm n a = zero -> zm (k mod n) a = zm k a.
  Proof.
    intro H. destruct (Z.eq_dec n 0) as [->|N]; [now rewrite Zmod_0_r|]. rewrite (Z.div_mod k n N) at 2. rewrite zm_add, zm_kill by exact H. symmetry. apply id_l.
  Qed.
  (** in a group element of prime order, multiples vanish exactly at multiples of the order *)
  Lemma zm_order n a k : prime n -> zm n a = zero -> a <> zero -> zm k a = zero -> k mod n = 0%Z.
  Proof.
    intros PR N A0 K. pose proof (prime_ge_2 _ PR). destruct (Z.eq_dec (k mod n) 0) as [E|E]; [exact E|destruct A0].
    assert (R : rel_prime k n). { apply rel_prime_sym, prime_rel_prime; [exact PR|]. intro D. apply E. now apply Zdivide_mod. }
    apply rel_prime_bezout in R. destruct R as [u v B]. rewrite <- (zm_1 a), <- B, zm_add, !zm_mul, K, N, !zm_zero. apply id_l.
  Qed.
  Lemma zm_inj n a j k : prime n -> zm n a = zero -> a <> zero -> zm j a = zm k a -> j mod n = k mod n.
  Proof.
    intros PR N A0 E. pose proof (prime_ge_2 _ PR). assert (Z0 : zm (j - k) a = zero). { unfold Z.sub. rewrite zm_add, zm_opp, E. apply inv. }
    apply (zm_order n a) in Z0; auto. apply Zmod_divide in Z0; [|lia]. destruct Z0 as [q Hq]. replace j with (k + q * n)%Z by lia. apply Z_mod_plus_full.
  Qed.

  (** a finite group with an element of prime order n, an odd number of elements and fewer than 3 n of them has exactly n *)
  Theorem order_n (E : list A) (n : Z) (g : A) : NoDup E -> (forall b, In b E) -> prime n -> g <> zero -> zm n g = zero ->
    Nat.odd (length E) = true -> Z.of_nat (length E) < 3 * n -> Z.of_nat (length E) = n.
  Proof.
    intros ND ALL PR G NG ODD LT. pose proof (prime_ge_2 _ PR). pose proof (order_kills A add zero neg comm assoc id_l inv E g ND ALL) as K.
    rewrite <- zm_nat in K. apply (zm_order n) in K; auto. apply Zmod_divide in K; [|lia]. destruct K as [q Hq].
    assert (q = 1 \/ q = 2 \/ q = 0)%Z as [->|[->| ->]] by nia; [lia| |].
    - exfalso. apply Nat.odd_spec in ODD. destruct ODD as [m Hm]. lia.
    - assert (length E = O) by lia. destruct E; [destruct (ALL zero)|discriminate].
  Qed.
  (** and then all of them are multiples of g *)
  Theorem cyclic_n (E : list A) (n : Z) (g : A) : NoDup E -> (forall b, In b E) -> prime n -> g <> zero -> zm n g = zero -> Z.of_nat (length E) = n ->
    forall a, exists k, 0 <= k < n /\ a = zm k g.
  Proof.
    intros ND ALL PR G NG L a. pose proof (prime_ge_2 _ PR).
    set (l := map (fun i => zm (Z.of_nat i) g) (seq 0 (Z.to_nat n))).
    assert (NL : NoDup l).
    { assert (X : forall m s, Z.of_nat (s + m) <= n -> NoDup (map (fun i => zm (Z.of_nat i) g) (seq s m))).
      { induction m as [|m IH]; intros s Hs; cbn [seq map]; constructor; [|apply IH; lia]. intro I. apply in_map_iff in I as [i [Ei Ii]]. apply in_seq in Ii.
        apply (zm_inj n) in Ei; auto. rewrite !Z.mod_small in Ei by lia. lia. }
      apply X. lia. }
    assert (I : incl E l). { apply (NoDup_length_incl NL); [unfold l; rewrite map_length, seq_length; lia|intros b _; apply ALL]. }
    specialize (I a (ALL a)). apply in_map_iff in I as [i [Ei Ii]]. apply in_seq in Ii. exists (Z.of_nat i). split; [lia|now symmetry].
  Qed.
End AbZ.
