(** AbGroup.v -- multiples in an abelian group, and the order of a finite one (pure mathematics, no Go code modelled here). *)
From Verif Require Import Base.
From Coq Require Import Znumtheory Permutation.

Section Ab.
  Variable A : Type.
  Variables (add : A -> A -> A) (zero : A) (neg : A -> A).
  Hypothesis comm : forall a b, add a b = add b a.
  Hypothesis assoc : forall a b c, add (add a b) c = add a (add b c).
  Hypothesis id_l : forall a, add zero a = a.
  Hypothesis inv : forall a, add a (neg a) = zero.
  Infix "+" := add.
  Fixpoint nm (k : nat) (a : A) : A := match k with O => zero | S k => a + nm k a end.

  Lemma id_r a : a + zero = a. Proof. rewrite comm. apply id_l. Qed.
  Lemma cancel_l a b c : a + b = a + c -> b = c.
  Proof. intro H. rewrite <- (id_l b), <- (id_l c), <- (inv a), (comm a (neg a)), !assoc, H. reflexivity. Qed.
  Lemma nm_add j k a : nm (j + k)%nat a = nm j a + nm k a.
  Proof. induction j as [|j IH]; cbn [nm Nat.add]; [now rewrite id_l|]. rewrite IH, assoc. reflexivity. Qed.
  Lemma nm_zero k : nm k zero = zero. Proof. induction k as [|k IH]; cbn [nm]; [reflexivity|]. now rewrite IH, id_l. Qed.
  Lemma nm_mul j k a : nm (j * k)%nat a = nm j (nm k a).
  Proof. induction j as [|j IH]; cbn [nm Nat.mul]; [reflexivity|]. rewrite nm_add, IH. reflexivity. Qed.
  Lemma nm_mul_zero j k a : nm k a = zero -> nm (j * k)%nat a = zero.
  Proof. intro H. now rewrite nm_mul, H, nm_zero. Qed.

  (** if j a = 0 and k a = 0 then gcd(j, k) a = 0 *)
  Lemma nm_gcd a : forall k j, nm j a = zero -> nm k a = zero -> nm (Nat.gcd j k) a = zero.
  Proof.
    intros k j. revert k. induction j as [j IH] using lt_wf_ind. intros k Hj Hk.
    destruct j as [|j]; [rewrite Nat.gcd_0_l; exact Hk|].
    assert (E : Nat.gcd (S j) k = Nat.gcd (k mod S j) (S j)) by reflexivity. rewrite E.
    apply IH; [apply Nat.mod_upper_bound; lia| |exact Hj].
    pose proof (Nat.div_mod k (S j) ltac:(lia)) as D. rewrite D in Hk. rewrite nm_add in Hk.
    rewrite Nat.mul_comm in Hk. rewrite (nm_mul_zero _ _ _ Hj), id_l in Hk. exact Hk.
  Qed.

  (** a finite group: |E| a = 0 *)
  Definition suml (l : list A) : A := fold_right add zero l.
  Lemma suml_perm l l' : Permutation l l' -> suml l = suml l'.
  Proof.
    induction 1; cbn [suml fold_right]; auto.
    - unfold suml in IHPermutation. now rewrite IHPermutation.
    - rewrite <- !assoc, (comm y x). reflexivity.
    - now rewrite IHPermutation1.
  Qed.
  Lemma suml_shift a l : suml (map (add a) l) = nm (length l) a + suml l.
  Proof.
    induction l as [|b l IH]; cbn [suml fold_right map nm length]; [now rewrite id_l|]. unfold suml in IH. rewrite IH.
    rewrite !assoc. f_equal. rewrite <- !assoc. f_equal. apply comm.
  Qed.
  Theorem order_kills (E : list A) a : NoDup E -> (forall b, In b E) -> nm (length E) a = zero.
  Proof.
    intros ND ALL. assert (P : Permutation (map (add a) E) E).
    { apply NoDup_Permutation; [|exact ND|].
      - clear ALL. induction ND as [|b l NI ND IH]; cbn [map]; constructor; auto. intro I. apply in_map_iff in I as [c [Ec Ic]].
        apply cancel_l in Ec. subst c. contradiction.
      - intro b. split; [intros _; apply ALL|intros _]. apply in_map_iff. exists (neg a + b). split; [|apply ALL].
        rewrite <- assoc, inv, id_l. reflexivity. }
    apply suml_perm in P. rewrite suml_shift in P. apply (cancel_l (suml E)). rewrite comm, P, id_r. reflexivity.
  Qed.

  (** a group with elements of prime order n and of order 8 whose size is below 16 n has size 8 n *)
  Theorem order_8n (E : list A) (n : nat) (g t : A) : NoDup E -> (forall b, In b E) ->
    prime (Z.of_nat n) -> (8 < n)%nat -> g <> zero -> nm n g = zero -> nm 8 t = zero -> nm 4 t <> zero ->
    (length E < 16 * n)%nat -> length E = (8 * n)%nat.
  Proof.
    intros ND ALL PR N8 G NG T8 T4 LT. set (k := length E) in *.
    assert (K0 : (0 < k)%nat) by (subst k; destruct E; [destruct (ALL zero)|cbn; lia]).
    pose proof (order_kills E g ND ALL) as Kg. pose proof (order_kills E t ND ALL) as Kt. fold k in Kg, Kt.
    assert (D1 : Nat.divide n k).
    { destruct (Nat.eq_dec (Nat.gcd n k) n) as [Eq|NE]; [rewrite <- Eq; apply Nat.gcd_divide_r|exfalso]. apply G.
      assert (G1 : Nat.gcd n k = 1%nat).
      { pose proof (Nat.gcd_divide_l n k) as [q Hq].
        destruct (prime_divisors (Z.of_nat n) PR (Z.of_nat (Nat.gcd n k))) as [X|[X|[X|X]]]; try lia.
        exists (Z.of_nat q). rewrite <- Nat2Z.inj_mul. now f_equal. }
      pose proof (nm_gcd g k n NG Kg) as X. rewrite G1 in X. cbn [nm] in X. now rewrite id_r in X. }
    assert (D2 : Nat.divide 8 k).
    { destruct (Nat.eq_dec (Nat.gcd 8 k) 8) as [Eq|NE]; [rewrite <- Eq; apply Nat.gcd_divide_r|exfalso]. apply T4.
      assert (Dv : Nat.divide (Nat.gcd 8 k) 4).
      { pose proof (Nat.gcd_divide_l 8 k) as [q Hq]. set (g8 := Nat.gcd 8 k) in *. clearbody g8.
        assert (B : (g8 <= 8)%nat) by (destruct q; lia).
        do 9 (destruct g8 as [|g8]; [try lia; try (exfalso; lia); first [now exists 4%nat|now exists 2%nat|now exists 1%nat|lia]|]). lia. }
      destruct Dv as [q Hq]. rewrite Hq. apply nm_mul_zero. apply (nm_gcd t k 8 T8 Kt). }
    destruct D1 as [a Ha]. destruct D2 as [b Hb].
    assert (D3 : Nat.divide 8 a).
    { apply (Nat.gauss 8 n a); [exists b; lia|].
      assert (R : rel_prime (Z.of_nat n) 8).
      { apply prime_rel_prime; [exact PR|]. intros [q Hq]. assert (q = 0 \/ 0 < q) as [->|] by nia; [lia|nia]. }
      apply Zgcd_1_rel_prime in R. destruct (Nat.gcd_divide_l 8 n) as [u Hu]. destruct (Nat.gcd_divide_r 8 n) as [v Hv].
      assert (X : (Z.of_nat (Nat.gcd 8 n) | Z.gcd (Z.of_nat n) 8)).
      { apply Z.gcd_greatest; [exists (Z.of_nat v)|exists (Z.of_nat u); change 8 with (Z.of_nat 8)]; rewrite <- Nat2Z.inj_mul; now f_equal. }
      rewrite R in X. apply Z.divide_1_r in X. lia. }
    destruct D3 as [c Hc]. assert (c = 1%nat) by nia. subst c. lia.
  Qed.
End Ab.
