(** NumTh.v -- modular arithmetic as done by Go's math/big: ModInverse and Exp with signed exponents.

    math/big is an external library; these definitions state its documented behaviour on the argument
    ranges used in /repo (positive modulus). *)
From Verif Require Import Base.
From Coq Require Import Znumtheory Zpow_facts Morphisms Setoid.

(** ** Congruence *)
Definition cong (m a b : Z) : Prop := (m | a - b).
Global Instance cong_equiv m : Equivalence (cong m).
Proof.
  split.
  - intro a. exists 0. lia.
  - intros a b [q H]. exists (- q). lia.
  - intros a b c [q H] [r K]. exists (q + r). lia.
Qed.
Global Instance cong_add m : Proper (cong m ==> cong m ==> cong m) Z.add.
Proof. intros a b [q H] c d [r K]. exists (q + r). lia. Qed.
Global Instance cong_sub m : Proper (cong m ==> cong m ==> cong m) Z.sub.
Proof. intros a b [q H] c d [r K]. exists (q - r). lia. Qed.
Global Instance cong_mul m : Proper (cong m ==> cong m ==> cong m) Z.mul.
Proof.
  intros a b [q H] c d [r K]. exists (q * c + b * r).
  replace (a * c - b * d) with ((a - b) * c + b * (c - d)) by ring. rewrite H, K. ring.
Qed.
Lemma cong_refl m a : cong m a a. Proof. reflexivity. Qed.
Lemma cong_pow m a b k : cong m a b -> cong m (a ^ k) (b ^ k).
Proof.
  intro H. destruct (Z_lt_le_dec k 0) as [Hk|Hk]; [rewrite !Z.pow_neg_r by lia; reflexivity|].
  revert k Hk. apply natlike_ind; [reflexivity|]. intros k Hk IH.
  rewrite !Z.pow_succ_r by lia. apply cong_mul; assumption.
Qed.
Global Instance cong_pow_proper m : Proper (cong m ==> eq ==> cong m) Z.pow.
Proof. intros a b H k l <-. apply cong_pow, H. Qed.
Lemma cong_mod m a : 0 < m -> cong m (a mod m) a.
Proof. intro. exists (- (a / m)). pose proof (Z.div_mod a m). lia. Qed.
Lemma cong_eq m a b : 0 < m -> cong m a b <-> a mod m = b mod m.
Proof.
  intro Hm. split.
  - intros [q H]. replace a with (b + q * m) by lia. apply Z_mod_plus_full.
  - intro H. rewrite <- (cong_mod m a), <- (cong_mod m b), H by lia. reflexivity.
Qed.
Lemma cong_small m a b : 0 <= a < m -> 0 <= b < m -> cong m a b -> a = b.
Proof. intros Ha Hb H. apply cong_eq in H; [|lia]. rewrite !Z.mod_small in H by lia. exact H. Qed.
Lemma cong_div m m' a b : (m' | m) -> cong m a b -> cong m' a b.
Proof. unfold cong. intros. eapply Z.divide_trans; eauto. Qed.
Lemma cong_0 m a : cong m a 0 <-> (m | a).
Proof. unfold cong. rewrite Z.sub_0_r. reflexivity. Qed.

Lemma gcd_cong m a b : cong m a b -> Z.gcd a m = Z.gcd b m.
Proof.
  intros [q H]. replace a with (b + q * m) by lia. rewrite (Z.gcd_comm _ m), (Z.gcd_comm b).
  rewrite Z.add_comm. rewrite <- Z.add_comm. rewrite Z.gcd_add_mult_diag_r. reflexivity.
Qed.
Lemma gcd_mul_1 a b m : Z.gcd a m = 1 -> Z.gcd b m = 1 -> Z.gcd (a * b) m = 1.
Proof.
  intros Ha Hb. apply Zgcd_1_rel_prime in Ha, Hb. apply Zgcd_1_rel_prime.
  apply rel_prime_sym. apply rel_prime_mult; apply rel_prime_sym; assumption.
Qed.
Lemma gcd_pow_1 a k m : 0 <= k -> Z.gcd a m = 1 -> Z.gcd (a ^ k) m = 1.
Proof.
  intros Hk H. revert k Hk. apply natlike_ind; [apply Z.gcd_1_l|].
  intros k Hk IH. rewrite Z.pow_succ_r by lia. apply gcd_mul_1; assumption.
Qed.
Lemma unit_cancel m a x y : Z.gcd a m = 1 -> cong m (a * x) (a * y) -> cong m x y.
Proof.
  intros Hg [q H]. apply (Gauss m a (x - y)).
  - exists q. lia.
  - apply Zgcd_1_rel_prime. rewrite Z.gcd_comm. exact Hg.
Qed.

(** ** Extended Euclid *)
Fixpoint egcd (fuel : nat) (a b : Z) : Z * Z * Z :=
  match fuel with
  | O => (a, 1, 0)
  | S f => if b =? 0 then (a, 1, 0)
           else let '(g, x, y) := egcd f b (a mod b) in (g, y, x - (a / b) * y)
  end.
Definition bezout_ok a b (t : Z * Z * Z) : Prop :=
  let '(g, x, y) := t in g = Z.gcd a b /\ a * x + b * y = g.
Lemma egcd_step f a b : 0 <= a -> 0 < b -> bezout_ok b (a mod b) (egcd f b (a mod b)) -> bezout_ok a b (egcd (S f) a b).
Proof.
  intros Ha Hb H. cbn [egcd]. destruct (Z.eqb_spec b 0); [lia|].
  destruct (egcd f b (a mod b)) as [[g x] y]. destruct H as [H1 H2]. split.
  - rewrite H1. rewrite Z.gcd_comm, Z.gcd_mod by lia. apply Z.gcd_comm.
  - rewrite <- H2. pose proof (Z.div_mod a b). nia.
Qed.
Lemma egcd_base f a : 0 <= a -> bezout_ok a 0 (egcd f a 0).
Proof. intro. destruct f; cbn; rewrite Z.gcd_0_r, Z.abs_eq by lia; lia. Qed.
Lemma egcd_correct (k : nat) : forall f a b, (2 * k <= f)%nat -> 0 <= a -> 0 <= b < 2 ^ Z.of_nat k -> bezout_ok a b (egcd f a b).
Proof.
  induction k as [|k IH]; intros f a b Hf Ha Hb.
  - replace b with 0 by (cbn in Hb; lia). apply egcd_base; auto.
  - destruct (Z.eq_dec b 0) as [->|Hb0]; [apply egcd_base; auto|].
    destruct f as [|[|f]]; [lia|lia|].
    assert (0 <= a mod b < b) by (apply Z.mod_pos_bound; lia).
    apply egcd_step; [lia|lia|].
    destruct (Z.eq_dec (a mod b) 0) as [->|Hr0]; [apply egcd_base; lia|].
    set (r := a mod b) in *. assert (0 <= b mod r < r) by (apply Z.mod_pos_bound; lia).
    apply egcd_step; [lia|lia|]. apply IH; [lia|lia|].
    rewrite Nat2Z.inj_succ, Z.pow_succ_r in Hb by lia.
    assert (1 <= b / r) by (apply Z.div_le_lower_bound; lia).
    pose proof (Z.div_mod b r). nia.
Qed.

(** math/big (z *Int).ModInverse(g, n), n > 0: nil iff gcd(g, n) <> 1 *)
Definition invm (a m : Z) : option Z :=
  let '(g, x, _) := egcd (2 * S (Z.to_nat (Z.log2 m))) (a mod m) m in
  if g =? 1 then Some (x mod m) else None.

Lemma log2_bound m : 0 < m -> m < 2 ^ Z.of_nat (S (Z.to_nat (Z.log2 m))).
Proof.
  intro. rewrite Nat2Z.inj_succ, Z2Nat.id by apply Z.log2_nonneg. apply Z.log2_spec; lia.
Qed.
Lemma invm_spec a m : 0 < m ->
  match invm a m with
  | Some b => Z.gcd a m = 1 /\ 0 <= b < m /\ cong m (a * b) 1
  | None => Z.gcd a m <> 1
  end.
Proof.
  intro Hm. unfold invm.
  assert (Ha : 0 <= a mod m < m) by (apply Z.mod_pos_bound; lia).
  pose proof (egcd_correct _ (2 * S (Z.to_nat (Z.log2 m))) (a mod m) m (le_n _) (proj1 Ha) (conj (Z.lt_le_incl _ _ Hm) (log2_bound m Hm))) as H.
  destruct (egcd _ (a mod m) m) as [[g x] y]. destruct H as [H1 H2].
  assert (G : Z.gcd a m = g).
  { rewrite H1. apply gcd_cong. symmetry. apply cong_mod; lia. }
  destruct (Z.eqb_spec g 1) as [E|E]; [|congruence].
  repeat split; try (apply Z.mod_pos_bound; lia); try congruence.
  rewrite (cong_mod m x) by lia. rewrite <- (cong_mod m a) by lia.
  exists (- y). lia.
Qed.
Lemma invm_some a m : 0 < m -> Z.gcd a m = 1 -> exists b, invm a m = Some b /\ 0 <= b < m /\ cong m (a * b) 1.
Proof. intros Hm Hg. pose proof (invm_spec a m Hm) as H. destruct (invm a m); [exists z; tauto|contradiction]. Qed.

(** a ^ k mod m, k >= 0, by square and multiply (so that examples compute) *)
Definition powm (a k m : Z) : Z := Zpow_mod (a mod m) k m mod m.
Lemma powm_eq a k m : 0 < m -> 0 <= k -> powm a k m = a ^ k mod m.
Proof.
  intros Hm Hk. unfold powm. destruct (Z.eq_dec m 1) as [->|Hm1]; [rewrite !Z.mod_1_r; reflexivity|].
  rewrite Zpow_mod_correct by lia. rewrite Z.mod_mod by lia.
  apply cong_eq; [lia|]. apply cong_pow. apply cong_mod; lia.
Qed.

(** math/big (z *Int).Exp(x, y, m), m > 0: canonical residue; for y < 0 the inverse of x is used, and nil is
    returned when x has none *)
Definition expm (a k m : Z) : option Z :=
  if 0 <=? k then Some (powm a k m)
  else match invm a m with Some b => Some (powm b (- k) m) | None => None end.

Lemma expm_range a k m r : 0 < m -> expm a k m = Some r -> 0 <= r < m.
Proof.
  intros Hm H. unfold expm in H. assert (forall x y, 0 <= powm x y m < m) by (intros; apply Z.mod_pos_bound; lia).
  destruct (0 <=? k); [|destruct (invm a m); [|discriminate]]; inversion H; subst; auto.
Qed.
Lemma expm_nonneg a k m : 0 < m -> 0 <= k -> expm a k m = Some (a ^ k mod m).
Proof. intros. unfold expm. destruct (Z.leb_spec 0 k); [|lia]. f_equal. apply powm_eq; lia. Qed.
(** the defining property of a possibly negative power: a^k * a^j = a^(k+j) for j with j, k+j >= 0 *)
Lemma expm_char a k m r : 0 < m -> expm a k m = Some r -> forall j, 0 <= j -> 0 <= k + j -> cong m (r * a ^ j) (a ^ (k + j)).
Proof.
  intros Hm H j Hj Hkj. unfold expm in H. destruct (Z.leb_spec 0 k) as [Hk|Hk].
  - inversion H; subst r. rewrite powm_eq by lia. rewrite cong_mod by lia. rewrite Z.pow_add_r by lia. reflexivity.
  - pose proof (invm_spec a m Hm) as I. destruct (invm a m) as [b|]; [|discriminate]. destruct I as (_ & _ & I).
    inversion H; subst r. rewrite powm_eq by lia. rewrite cong_mod by lia.
    replace j with (- k + (k + j)) at 1 by lia. rewrite Z.pow_add_r by lia.
    rewrite Z.mul_assoc, <- Z.pow_mul_l. rewrite (Z.mul_comm b). rewrite (cong_pow m (a * b) 1 (- k) I).
    rewrite Z.pow_1_l by lia. rewrite Z.mul_1_l. reflexivity.
Qed.
Lemma expm_unit a k m : 0 < m -> Z.gcd a m = 1 -> exists r, expm a k m = Some r.
Proof.
  intros Hm Hg. unfold expm. destruct (0 <=? k); [eauto|]. destruct (invm_some a m Hm Hg) as (b & -> & _). eauto.
Qed.
Lemma expm_none a k m : 0 < m -> expm a k m = None <-> k < 0 /\ Z.gcd a m <> 1.
Proof.
  intro Hm. unfold expm. pose proof (invm_spec a m Hm) as I.
  destruct (Z.leb_spec 0 k); destruct (invm a m); split; intro Hx; try discriminate; try lia; try tauto.
Qed.
Lemma expm_unique a k m r s j : 0 < m -> Z.gcd a m = 1 -> 0 <= j -> 0 <= k + j ->
  expm a k m = Some r -> cong m (s * a ^ j) (a ^ (k + j)) -> cong m r s.
Proof.
  intros Hm Hg Hj Hkj Hr Hs. pose proof (expm_char a k m r Hm Hr j Hj Hkj) as H.
  apply (unit_cancel m (a ^ j)); [apply gcd_pow_1; auto|].
  rewrite (Z.mul_comm _ r), (Z.mul_comm _ s), H, Hs. reflexivity.
Qed.
Lemma expm_gcd a k m r : 0 < m -> Z.gcd a m = 1 -> expm a k m = Some r -> Z.gcd r m = 1.
Proof.
  intros Hm Hg H. unfold expm in H. destruct (Z.leb_spec 0 k).
  - inversion H. rewrite powm_eq by lia. rewrite (gcd_cong m _ (a ^ k)) by (apply cong_mod; lia). apply gcd_pow_1; auto.
  - destruct (invm_some a m Hm Hg) as (b & E & Hb & C). rewrite E in H. inversion H.
    rewrite powm_eq by lia. rewrite (gcd_cong m _ (b ^ (- k))) by (apply cong_mod; lia). apply gcd_pow_1; [lia|].
    apply Zgcd_1_rel_prime. apply bezout_rel_prime. destruct C as [q Hq]. apply (Bezout_intro _ _ _ a (- q)). lia.
Qed.
(** a^(k+l) = a^k * a^l *)
Lemma expm_add a k l m r s : 0 < m -> Z.gcd a m = 1 -> expm a k m = Some r -> expm a l m = Some s ->
  expm a (k + l) m = Some (r * s mod m).
Proof.
  intros Hm Hg Hr Hs. destruct (expm_unit a (k + l) m Hm Hg) as [t Ht]. rewrite Ht. f_equal.
  apply (cong_small m); [eapply expm_range; eauto|apply Z.mod_pos_bound; lia|].
  rewrite cong_mod by lia.
  set (j := Z.max 0 (- k)). set (i := Z.max 0 (- l)).
  apply (expm_unique a (k + l) m _ _ (j + i)); auto; try lia.
  pose proof (expm_char a k m r Hm Hr j ltac:(lia) ltac:(lia)) as A.
  pose proof (expm_char a l m s Hm Hs i ltac:(lia) ltac:(lia)) as B.
  rewrite Z.pow_add_r by lia. replace (r * s * (a ^ j * a ^ i)) with ((r * a ^ j) * (s * a ^ i)) by ring.
  rewrite A, B. rewrite <- Z.pow_add_r by lia. replace (k + j + (l + i)) with (k + l + (j + i)) by lia. reflexivity.
Qed.
Lemma expm_cong a b k m : 0 < m -> cong m a b -> expm a k m = expm b k m.
Proof.
  intros Hm H. apply cong_eq in H; [|lia].
  assert (forall x y, x mod m = y mod m -> powm x k m = powm y k m) as P by (intros x y E; unfold powm; rewrite E; reflexivity).
  unfold expm. destruct (0 <=? k); [rewrite (P a b) by auto; reflexivity|].
  unfold invm. rewrite H. reflexivity.
Qed.
(** (a*b)^k = a^k * b^k *)
Lemma expm_mul a b k m r s : 0 < m -> Z.gcd a m = 1 -> Z.gcd b m = 1 -> expm a k m = Some r -> expm b k m = Some s ->
  expm (a * b) k m = Some (r * s mod m).
Proof.
  intros Hm Ha Hb Hr Hs. assert (Hab := gcd_mul_1 a b m Ha Hb).
  destruct (expm_unit (a * b) k m Hm Hab) as [t Ht]. rewrite Ht. f_equal.
  apply (cong_small m); [eapply expm_range; eauto|apply Z.mod_pos_bound; lia|].
  rewrite cong_mod by lia. set (j := Z.max 0 (- k)).
  apply (expm_unique (a * b) k m _ _ j); auto; try lia.
  pose proof (expm_char a k m r Hm Hr j ltac:(lia) ltac:(lia)) as A.
  pose proof (expm_char b k m s Hm Hs j ltac:(lia) ltac:(lia)) as B.
  rewrite !Z.pow_mul_l. replace (r * s * (a ^ j * b ^ j)) with ((r * a ^ j) * (s * b ^ j)) by ring.
  rewrite A, B. reflexivity.
Qed.
(** (a^k)^l = a^(k*l) *)
Lemma expm_0 a m : 0 < m -> expm a 0 m = Some (1 mod m).
Proof. intro. rewrite expm_nonneg by lia. rewrite Z.pow_0_r. reflexivity. Qed.
Lemma expm_1 a m : 0 < m -> expm a 1 m = Some (a mod m).
Proof. intro. rewrite expm_nonneg by lia. rewrite Z.pow_1_r. reflexivity. Qed.
Lemma expm_opp a k m r s : 0 < m -> Z.gcd a m = 1 -> expm a k m = Some r -> expm a (- k) m = Some s -> cong m (r * s) 1.
Proof.
  intros Hm Hg Hr Hs. pose proof (expm_add a k (- k) m r s Hm Hg Hr Hs) as H.
  rewrite Z.add_opp_diag_r, expm_0 in H by lia. inversion H as [E]. symmetry. apply cong_eq; lia.
Qed.
Lemma expm_pow_nonneg a k l m r : 0 < m -> Z.gcd a m = 1 -> 0 <= l -> expm a k m = Some r ->
  expm a (k * l) m = Some (r ^ l mod m).
Proof.
  intros Hm Hg Hl Hr. revert l Hl. apply natlike_ind.
  - rewrite Z.mul_0_r, Z.pow_0_r. apply expm_0; auto.
  - intros l Hl IH. rewrite Z.mul_succ_r. rewrite (expm_add a (k * l) k m _ r Hm Hg IH Hr). f_equal.
    apply cong_eq; [lia|]. rewrite cong_mod by lia. rewrite Z.pow_succ_r by lia. rewrite Z.mul_comm. reflexivity.
Qed.
Lemma expm_expm a k l m r : 0 < m -> Z.gcd a m = 1 -> expm a k m = Some r -> expm a (k * l) m = expm r l m.
Proof.
  intros Hm Hg Hr. assert (Hrg := expm_gcd a k m r Hm Hg Hr).
  destruct (Z_le_gt_dec 0 l) as [Hl|Hl].
  - rewrite (expm_pow_nonneg a k l m r Hm Hg Hl Hr), expm_nonneg by lia. reflexivity.
  - destruct (expm_unit r l m Hm Hrg) as [t Ht]. destruct (expm_unit a (k * l) m Hm Hg) as [u Hu].
    rewrite Ht, Hu. f_equal. apply (cong_small m); [eapply expm_range; eauto|eapply expm_range; eauto|].
    pose proof (expm_pow_nonneg a k (- l) m r Hm Hg ltac:(lia) Hr) as P.
    replace (k * - l) with (- (k * l)) in P by lia.
    pose proof (expm_opp a (k * l) m u _ Hm Hg Hu P) as A. rewrite cong_mod in A by lia.
    pose proof (expm_char r l m t Hm Ht (- l) ltac:(lia) ltac:(lia)) as B. rewrite Z.add_opp_diag_r, Z.pow_0_r in B.
    apply (unit_cancel m (r ^ (- l))); [apply gcd_pow_1; auto; lia|].
    rewrite (Z.mul_comm _ u), (Z.mul_comm _ t), A, B. reflexivity.
Qed.
