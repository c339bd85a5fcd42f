(** Jacobi.v -- math/big Jacobi by its mathematical definition, and common/random.go 106-114
    GetRandomQuadraticNonResidue.

    The Go library computes the symbol with the binary algorithm; it is modelled by the definition it implements:
    the product of the Legendre symbols over the prime factorization of the odd modulus, a Legendre symbol being
    0 for a multiple of the prime, 1 for a non-zero square and -1 otherwise. *)
From Verif Require Import Base BigInt NumTh Euler RangeProofs Random PropRandom.
From Coq Require Import Znumtheory.

Definition zseq (a b : Z) : list Z := map Z.of_nat (seq (Z.to_nat a) (Z.to_nat (b + 1 - a))).
Lemma in_zseq a b x : 0 <= a -> In x (zseq a b) <-> a <= x <= b.
Proof.
  intro Ha. unfold zseq. rewrite in_map_iff. split.
  - intros [n [<- Hn]]. apply in_seq in Hn. lia.
  - intro H. exists (Z.to_nat x). split; [lia|]. apply in_seq. lia.
Qed.

(** Legendre symbol, for a prime p *)
Definition legendre (a p : Z) : Z :=
  if a mod p =? 0 then 0 else if existsb (fun x => (x * x) mod p =? a mod p) (zseq 1 (p - 1)) then 1 else -1.
(** least divisor above 1 *)
Definition lpf (n : Z) : Z := match find (fun d => n mod d =? 0) (zseq 2 n) with Some d => d | None => n end.
Fixpoint factors_f (fuel : nat) (n : Z) : list Z :=
  match fuel with
  | O => []
  | S f => if n <=? 1 then [] else lpf n :: factors_f f (n / lpf n)
  end.
Definition factors (n : Z) : list Z := factors_f (Z.to_nat n) n.
Definition jacobi_pos (a n : Z) : Z := fold_right (fun p r => legendre a p * r) 1 (factors n).
(** math/big Jacobi(x, y): panics for an even y; a negative y counts as |y|, with the sign -1 if x < 0 too *)
Definition jac (x y : Z) : outcome Z :=
  if Z.even y then Panic else Ret ((if (y <? 0) && (x <? 0) then -1 else 1) * jacobi_pos x (Z.abs y)).

(** ** prime factorization *)
Definition lprod (l : list Z) : Z := fold_right Z.mul 1 l.

Lemma find_first {A} (f : A -> bool) l x : find f l = Some x -> exists l1 l2, l = l1 ++ x :: l2 /\ f x = true /\ forall y, In y l1 -> f y = false.
Proof.
  induction l as [|a l IH]; [discriminate|]. cbn [find]. destruct (f a) eqn:E.
  - intro H. injection H as <-. exists [], l. repeat split; [assumption|]. intros y [].
  - intro H. destruct (IH H) as [l1 [l2 [-> [F N]]]]. exists (a :: l1), l2. repeat split; [assumption|]. intros y [<-|Hy]; auto.
Qed.
Lemma seq_split_lt a n l1 x l2 : seq a n = l1 ++ x :: l2 -> forall y, (a <= y < x)%nat -> In y l1.
Proof.
  revert a n. induction l1 as [|b l1 IH]; intros a n E y Hy; destruct n as [|n]; try discriminate; cbn [seq app] in E; injection E as E1 E2.
  - lia.
  - destruct (Nat.eq_dec y a) as [->|N]; [left; congruence|right]. eapply IH; [exact E2|lia].
Qed.
Lemma lpf_spec n : 1 < n -> prime (lpf n) /\ (lpf n | n) /\ lpf n <= n.
Proof.
  intro Hn. unfold lpf. destruct (find _ (zseq 2 n)) as [d|] eqn:F.
  - destruct (find_first _ _ _ F) as [l1 [l2 [E [Fd Nl]]]].
    assert (Hd : In d (zseq 2 n)) by (rewrite E; apply in_elt). apply in_zseq in Hd; [|lia].
    assert (Dn : (d | n)) by (apply Z.mod_divide; lia). split; [|split; [assumption|lia]].
    assert (Least : forall y, 2 <= y < d -> ~ (y | n)).
    { intros y Hy Dy. unfold zseq in E. apply map_eq_app in E. destruct E as [s1 [s2 [E1 [E2 E3]]]].
      destruct s2 as [|x s2]; [discriminate|]. cbn [map] in E3. injection E3 as E3 E4.
      assert (In (Z.to_nat y) s1) by (eapply seq_split_lt; [exact E1|lia]).
      assert (I : In y l1) by (rewrite <- E2, in_map_iff; exists (Z.to_nat y); split; [lia|assumption]).
      specialize (Nl y I). apply Z.mod_divide in Dy; lia. }
    constructor; [lia|]. intros y Hy. apply Zgcd_1_rel_prime.
    pose proof (Z.gcd_nonneg y d). pose proof (Z.gcd_divide_l y d) as G1. pose proof (Z.gcd_divide_r y d) as G2.
    destruct (Z.eq_dec (Z.gcd y d) 1) as [?|N1]; [assumption|exfalso].
    assert (Z.gcd y d <> 0) by (intro Z0; apply Z.gcd_eq_0_l in Z0; lia).
    apply (Least (Z.gcd y d)). { apply Z.divide_pos_le in G1; [|lia]. lia. }
    now apply Z.divide_trans with d.
  - exfalso. assert (X : (n mod n =? 0) = false) by (apply (find_none _ _ F n); apply in_zseq; lia). rewrite Z.mod_same in X by lia. discriminate.
Qed.
Lemma factors_f_spec fuel n : 0 < n -> n <= Z.of_nat fuel -> Forall prime (factors_f fuel n) /\ lprod (factors_f fuel n) = n.
Proof.
  revert n. induction fuel as [|f IH]; intros n Hn Hf; [lia|]. cbn [factors_f]. destruct (Z.leb_spec n 1).
  - split; [constructor|]. cbn. lia.
  - destruct (lpf_spec n ltac:(lia)) as [P [[k Hk] _]]. assert (2 <= lpf n) by apply (prime_ge_2 _ P).
    assert (E : n / lpf n = k) by (rewrite Hk at 1; apply Z.div_mul; lia). rewrite E.
    destruct (IH k) as [F L]; [nia|nia|]. split; [now constructor|]. cbn [lprod fold_right]. fold (lprod (factors_f f k)). rewrite L. lia.
Qed.
Lemma factors_spec n : 0 < n -> Forall prime (factors n) /\ lprod (factors n) = n.
Proof. intro H. apply factors_f_spec; lia. Qed.

Lemma prime_lprod p l : prime p -> Forall prime l -> (p | lprod l) -> In p l.
Proof.
  intros P. induction 1 as [|x l Px _ IH]; intro D.
  - cbn in D. apply Z.divide_1_r in D. pose proof (prime_ge_2 _ P). lia.
  - cbn [lprod fold_right] in D. fold (lprod l) in D. destruct (prime_mult _ P _ _ D) as [D1|D1].
    + left. symmetry. now apply prime_div_prime.
    + right. now apply IH.
Qed.
Lemma lprod_app a b : lprod (a ++ b) = lprod a * lprod b.
Proof. unfold lprod. induction a as [|x a IH]; cbn [app fold_right]; [|rewrite IH]; ring. Qed.
Lemma lprod_pos l : Forall prime l -> 1 <= lprod l.
Proof. induction 1 as [|x l P _ IH]; cbn [lprod fold_right]; [lia|]. fold (lprod l). pose proof (prime_ge_2 _ P). nia. Qed.
Lemma lprod_1 l : Forall prime l -> lprod l = 1 -> l = [].
Proof. intros F. destruct F as [|x l P F]; [reflexivity|]. cbn [lprod fold_right]. fold (lprod l). pose proof (prime_ge_2 _ P). pose proof (lprod_pos _ F). nia. Qed.
Lemma factors_two p q : prime p -> prime q -> factors (p * q) = [p; q] \/ factors (p * q) = [q; p].
Proof.
  intros P Q. pose proof (prime_ge_2 _ P). pose proof (prime_ge_2 _ Q).
  destruct (factors_spec (p * q) ltac:(nia)) as [F L].
  assert (I : In p (factors (p * q))) by (apply prime_lprod; [assumption..|]; rewrite L; apply Z.divide_factor_l).
  apply in_split in I. destruct I as [l1 [l2 E]]. rewrite E in F, L |- *. rewrite lprod_app in L. cbn [lprod fold_right] in L. fold (lprod l2) in L.
  assert (F1 : Forall prime l1) by (apply Forall_app in F; tauto). assert (F2 : Forall prime l2) by (apply Forall_app in F; destruct F as [_ F]; now inversion F).
  assert (L' : lprod (l1 ++ l2) = q) by (rewrite lprod_app; nia).
  assert (F' : Forall prime (l1 ++ l2)) by (apply Forall_app; tauto).
  destruct (l1 ++ l2) as [|a [|b l]] eqn:E2.
  - cbn in L'. lia.
  - cbn in L'. replace a with q in E2 by lia. destruct l1 as [|c [|]]; cbn [app] in E2.
    + left. now rewrite E2.
    + injection E2 as -> ->. right. reflexivity.
    + discriminate.
  - exfalso. inversion F' as [|? ? Pa F3]; subst. inversion F3 as [|? ? Pb F4]; subst. cbn [lprod fold_right] in Q. fold (lprod l) in Q.
    pose proof (prime_ge_2 _ Pa). pose proof (prime_ge_2 _ Pb). pose proof (lprod_pos _ F4).
    assert (D : (a | a * (b * lprod l))) by apply Z.divide_factor_l.
    apply (prime_div_prime _ _ Pa Q) in D. assert (2 <= b * lprod l) by nia. nia.
Qed.
Lemma factors_prime p : prime p -> factors p = [p].
Proof.
  intros P. pose proof (prime_ge_2 _ P). destruct (factors_spec p ltac:(lia)) as [F L].
  assert (I : In p (factors p)) by (apply prime_lprod; [assumption..|]; rewrite L; apply Z.divide_refl).
  apply in_split in I. destruct I as [l1 [l2 E]]. rewrite E in F, L |- *. rewrite lprod_app in L. cbn [lprod fold_right] in L. fold (lprod l2) in L.
  apply Forall_app in F. destruct F as [F1 F2]. inversion F2; subst. pose proof (lprod_pos _ F1). pose proof (lprod_pos l2 ltac:(assumption)).
  assert (A : lprod l1 * lprod l2 = 1) by nia. rewrite (lprod_1 l1), (lprod_1 l2); try assumption; [reflexivity|nia|nia].
Qed.

(** ** what the symbols say *)
Lemma legendre_val a p : legendre a p = 0 \/ legendre a p = 1 \/ legendre a p = -1.
Proof. unfold legendre. destruct (_ =? 0); [now left|]. destruct (existsb _ _); tauto. Qed.
Lemma legendre_0 a p : 0 < p -> legendre a p = 0 <-> (p | a).
Proof.
  intro Hp. unfold legendre. destruct (Z.eqb_spec (a mod p) 0) as [E|E].
  - split; [|reflexivity]. intros _. apply Z.mod_divide; lia.
  - split; [destruct (existsb _ _); discriminate|]. intro D. apply Z.mod_divide in D; lia.
Qed.
Lemma legendre_1 a p : 0 < p -> legendre a p = 1 <-> ~ (p | a) /\ exists x, cong p (x * x) a.
Proof.
  intro Hp. unfold legendre. destruct (Z.eqb_spec (a mod p) 0) as [E|E].
  - split; [discriminate|]. intros [N _]. destruct N. apply Z.mod_divide; lia.
  - destruct (existsb _ _) eqn:X.
    + split; [|reflexivity]. intros _. split; [intro D; apply Z.mod_divide in D; lia|]. apply existsb_exists in X.
      destruct X as [x [_ Hx]]. exists x. apply cong_eq; lia.
    + split; [discriminate|]. intros [N [x Hx]]. exfalso. assert (Y : existsb (fun x => (x * x) mod p =? a mod p) (zseq 1 (p - 1)) = true); [|congruence].
      apply existsb_exists. exists (x mod p). apply cong_eq in Hx; [|lia]. split.
      * apply in_zseq; [lia|]. pose proof (Z.mod_pos_bound x p Hp). destruct (Z.eq_dec (x mod p) 0) as [Z0|]; [|lia].
        rewrite Zmult_mod, Z0, Z.mul_0_l, Z.mod_0_l in Hx by lia. lia.
      * rewrite <- Zmult_mod. lia.
Qed.
Lemma legendre_m1 a p : 0 < p -> legendre a p = -1 <-> ~ exists x, cong p (x * x) a.
Proof.
  intro Hp. pose proof (legendre_val a p) as V. pose proof (legendre_0 a p Hp) as L0. pose proof (legendre_1 a p Hp) as L1. split.
  - intros E [x Hx]. assert (~ (p | a)) by (rewrite <- L0; lia). assert (legendre a p = 1) by (apply L1; eauto). lia.
  - intro N. destruct V as [V|[V|V]]; [|apply L1 in V; destruct V as [_ V]; contradiction|assumption].
    apply L0 in V. destruct N. exists 0. change (0 * 0) with 0. symmetry. now apply cong_0.
Qed.

Lemma jacobi_pos_m1 a n : 0 < n -> jacobi_pos a n = -1 -> Z.gcd a n = 1 /\ ~ exists x, cong n (x * x) a.
Proof.
  intros Hn J. destruct (factors_spec n Hn) as [F L].
  assert (G : forall l, Forall prime l -> fold_right (fun p r => legendre a p * r) 1 l <> 0 -> Z.gcd a (lprod l) = 1).
  { induction 1 as [|p l P _ IH]; cbn [fold_right]; intro N0; [apply Z.gcd_1_r|]. cbn [lprod fold_right]. fold (lprod l).
    rewrite Z.gcd_comm. apply gcd_mul_1; rewrite Z.gcd_comm.
    - apply Zgcd_1_rel_prime, rel_prime_sym, prime_rel_prime; [assumption|]. intro D. apply legendre_0 in D; [nia|]. pose proof (prime_ge_2 _ P). lia.
    - apply IH. nia. }
  split; [rewrite <- L; apply G; [assumption|]; unfold jacobi_pos in J; lia|].
  intros [x Hx].
  assert (E : forall l, Forall prime l -> (lprod l | n) -> 0 <= fold_right (fun p r => legendre a p * r) 1 l).
  { induction 1 as [|p l P _ IH]; cbn [fold_right]; intro D; [lia|]. cbn [lprod fold_right] in D. fold (lprod l) in D.
    pose proof (prime_ge_2 _ P).
    assert (Dp : (p | n)) by (apply Z.divide_trans with (p * lprod l); [apply Z.divide_factor_l|assumption]).
    assert (Dl : (lprod l | n)) by (apply Z.divide_trans with (p * lprod l); [apply Z.divide_factor_r|assumption]).
    specialize (IH Dl). assert (0 <= legendre a p); [|nia].
    destruct (legendre_val a p) as [V|[V|V]]; try lia. exfalso. apply legendre_m1 in V; [|lia]. apply V. exists x. now apply (cong_div n). }
  specialize (E (factors n) F). rewrite L in E. specialize (E (Z.divide_refl n)). unfold jacobi_pos in J. lia.
Qed.

(** ** random.go 106-114 GetRandomQuadraticNonResidue: a nil draw, an even modulus and a panicking draw panic *)
Inductive qnr (n : Z) : bytes -> outcome (Z * bytes) -> Prop :=
| qnr_done s w s' : pos_int (Some n) s (Ret (Some (w, s'))) -> jac w n = Ret (-1) -> qnr n s (Ret (w, s'))
| qnr_again s w s' j o : pos_int (Some n) s (Ret (Some (w, s'))) -> jac w n = Ret j -> j <> -1 -> qnr n s' o -> qnr n s o
| qnr_jac s w s' : pos_int (Some n) s (Ret (Some (w, s'))) -> jac w n = Panic -> qnr n s Panic
| qnr_nil s : pos_int (Some n) s (Ret None) -> qnr n s Panic
| qnr_panic s : pos_int (Some n) s Panic -> qnr n s Panic.

Theorem C41_nonresidue n s w s' : qnr n s (Ret (w, s')) ->
  0 < n /\ Z.odd n = true /\ 1 <= w < n /\ rel_prime w n /\ ~ exists x, (n | x * x - w).
Proof.
  intro H. remember (Ret (w, s')) as o eqn:E. induction H as [s w0 s0 Pi J| | | |]; try discriminate; [|auto].
  injection E as -> ->. apply C41_positive_int in Pi. destruct Pi as [m [Em [Hw _]]]. injection Em as <-.
  unfold jac in J. destruct (Z.even n) eqn:Ev; [discriminate|]. injection J as J.
  destruct (Z.ltb_spec n 0); [lia|]. cbn [andb] in J. rewrite Z.mul_1_l, Z.abs_eq in J by lia.
  apply jacobi_pos_m1 in J; [|lia]. destruct J as [G N]. rewrite <- Z.negb_even, Ev. split; [lia|]. split; [reflexivity|].
  split. { destruct (Z.eq_dec w 0) as [->|]; [|lia]. exfalso. apply N. exists 0. reflexivity. }
  split; [now apply Zgcd_1_rel_prime|]. intros [x [k Hk]]. apply N. exists x. exists k. lia.
Qed.
Theorem C41_nonresidue_bad n s o : n <= 0 -> qnr n s o -> o = Panic.
Proof.
  intros Hn H. assert (B : forall s d, pos_int (Some n) s d -> d = Ret None).
  { intros s0 d Hd. apply (proj1 (C41_positive_int_nil _ _ _ (or_intror (ex_intro _ n (conj eq_refl Hn))))) in Hd. exact Hd. }
  destruct H; try reflexivity; match goal with P : pos_int _ _ _ |- _ => apply B in P; discriminate end.
Qed.
Theorem C41_nonresidue_even n s o : Z.even n = true -> qnr n s o -> o = Panic.
Proof. intros Hn H. destruct H; try reflexivity; unfold jac in *; rewrite Hn in *; discriminate. Qed.
(** for a square modulus no residue class has symbol -1 and the search never returns a value *)
Theorem C41_nonresidue_square_refuted s w s' : ~ qnr 9 s (Ret (w, s')).
Proof.
  intro H. remember (Ret (w, s')) as o eqn:E. induction H as [s w0 s0 Pi J| | | |]; try discriminate; [|auto].
  clear - J. unfold jac in J. change (Z.even 9) with false in J. cbv iota in J. apply (f_equal (fun o => match o with Ret z => z | Panic => 0 end)) in J.
  cbv beta iota in J. change ((9 <? 0) && (w0 <? 0)) with false in J. cbv iota in J.
  rewrite Z.mul_1_l in J. unfold jacobi_pos in J. change (factors (Z.abs 9)) with [3; 3] in J. cbn [fold_right] in J.
  destruct (legendre_val w0 3) as [V|[V|V]]; rewrite V in J; lia.
Qed.
Theorem C41_nonresidue_example : jac 2 15 = Ret 1 /\ jac 7 15 = Ret (-1) /\ qnr 15 [zb 0; zb 2; zb 7] (Ret (7, [])).
Proof.
  assert (P : forall v rest, 0 <= v < 15 -> zb v :: rest = zb v :: rest -> must_int 4 (zb v :: rest) = Ret (v, rest) -> pos_int (Some 15) (zb v :: rest) (Ret (Some (v, rest)))).
  { intros v rest Hv _ M. change (Ret (Some (v, rest))) with (some_of (Ret (v, rest))). apply pos_run; [lia|]. apply rep_done; [exact M|]. lia. }
  split; [vm_compute; reflexivity|]. split; [vm_compute; reflexivity|].
  eapply qnr_again with (w := 0) (j := 0); [apply P; [lia|reflexivity|vm_compute; reflexivity]|vm_compute; reflexivity|lia|].
  eapply qnr_again with (w := 2) (j := 1); [apply P; [lia|reflexivity|vm_compute; reflexivity]|vm_compute; reflexivity|lia|].
  apply qnr_done; [apply P; [lia|reflexivity|vm_compute; reflexivity]|vm_compute; reflexivity].
Qed.
