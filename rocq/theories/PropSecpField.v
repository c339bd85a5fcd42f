(** PropSecpField.v -- C55: the arithmetic of btcec/v1/field.go is exact arithmetic modulo the secp256k1 prime. *)
From Verif Require Import Base BigInt NumTh Euler Pocklington SecpField SecpFieldThm SecpNorm SecpOps SecpPrimes.
From Coq Require Import Znumtheory.

Notation P := (2 ^ 256 - 4294968273).
Lemma P_pos : 0 < P. Proof. reflexivity. Qed.
Lemma mag63 m a : 0 <= m <= 63 -> mag m a -> mag 63 a. Proof. apply mag_mono. Qed.
Lemma norm_mod a x : mag 63 a -> cong p256k1 (fval a) x -> fval (fe_norm a) = x mod P.
Proof. intros M C. destruct (norm_ok a M) as [_ ->]. apply cong_eq; [reflexivity|exact C]. Qed.

(** Normalize leaves the unique word representation of the residue *)
Theorem C55_normalize a : mag 63 a ->
  fval (fe_norm a) = fval a mod P /\
  (forall b, mag 63 b -> fe_norm a = fe_norm b <-> fval a mod P = fval b mod P).
Proof.
  intro A. destruct (norm_ok a A) as [CA VA]. split; [exact VA|]. intros b B. destruct (norm_ok b B) as [CB VB].
  split; [intro E; rewrite E in VA; change (fval a mod p256k1 = fval b mod p256k1); congruence|].
  intro E. apply canon_inj; auto. rewrite VA, VB. exact E.
Qed.
(** Mul, Square: any operands of magnitude at most 8 *)
Theorem C55_mul a b : mag 8 a -> mag 8 b ->
  mag 1 (fe_mul a b) /\ fval (fe_norm (fe_mul a b)) = (fval a * fval b) mod P.
Proof. intros A B. destruct (mul_ok a b A B) as [M C]. split; [exact M|]. apply norm_mod; [apply (mag63 1); [lia|exact M]|exact C]. Qed.
Theorem C55_square a : mag 8 a -> mag 1 (fe_sq a) /\ fval (fe_norm (fe_sq a)) = (fval a * fval a) mod P.
Proof. intros A. destruct (sq_ok a A) as [M C]. split; [exact M|]. apply norm_mod; [apply (mag63 1); [lia|exact M]|exact C]. Qed.
(** Add, Negate, MulInt, AddInt: the magnitude grows as documented, up to 63 *)
Theorem C55_add a b m n : 0 <= m -> 0 <= n -> m + n <= 63 -> mag m a -> mag n b ->
  mag (m + n) (fe_add a b) /\ fval (fe_norm (fe_add a b)) = (fval a + fval b) mod P.
Proof.
  intros Hm Hn H A B. destruct (add_ok a b m n Hm Hn H A B) as [M C]. split; [exact M|].
  apply norm_mod; [apply (mag63 (m + n)); [lia|exact M]|rewrite C; reflexivity].
Qed.
Theorem C55_negate a m : 0 <= m <= 62 -> mag m a ->
  mag (m + 1) (fe_neg a m) /\ fval (fe_norm (fe_neg a m)) = (- fval a) mod P.
Proof.
  intros Hm A. destruct (neg_ok a m Hm A) as [M C]. split; [exact M|].
  apply norm_mod; [apply (mag63 (m + 1)); [lia|exact M]|]. rewrite C. exists (m + 1). lia.
Qed.
Theorem C55_mul_int a u m : 0 <= m -> 0 <= u < 2 ^ 32 -> m * u <= 63 -> mag m a ->
  mag (m * u) (fe_mul_int a u) /\ fval (fe_norm (fe_mul_int a u)) = (fval a * u) mod P.
Proof.
  intros Hm Hu H A. destruct (mul_int_ok a u m Hm Hu H A) as [M C]. split; [exact M|].
  apply norm_mod; [apply (mag63 (m * u)); [nia|exact M]|rewrite C; reflexivity].
Qed.
Theorem C55_add_int a u m : 0 <= m <= 62 -> 0 <= u <= 2 ^ 26 -> mag m a ->
  mag (m + 1) (fe_add_int a u) /\ fval (fe_norm (fe_add_int a u)) = (fval a + u) mod P.
Proof.
  intros Hm Hu A. destruct (add_int_ok a u m Hm Hu A) as [M C]. split; [exact M|].
  apply norm_mod; [apply (mag63 (m + 1)); [lia|exact M]|rewrite C; reflexivity].
Qed.
(** IsZero, IsOdd, Equals on normalized values *)
Theorem C55_tests a b : mag 63 a -> mag 63 b ->
  (fe_is_zero (fe_norm a) = true <-> fval a mod P = 0) /\ (fe_eqb (fe_norm a) (fe_norm b) = true <-> fval a mod P = fval b mod P) /\
  fe_is_odd (fe_norm a) = Z.odd (fval a mod P).
Proof.
  intros A B. destruct (norm_ok a A) as [CA VA]. destruct (norm_ok b B) as [CB VB].
  rewrite is_zero_ok, eqb_ok, is_odd_ok, VA, VB by auto. rewrite !Z.eqb_eq. repeat split; auto.
Qed.
(** SetBytes and Bytes: 32 bytes, big endian; Bytes after Normalize writes the reduced number *)
Theorem C55_bytes b : length b = 32%nat ->
  fval (fe_set_bytes b) = of_be b /\ fe_bytes (fe_norm (fe_set_bytes b)) = be_fixed 32 (of_be b mod P) /\
  (of_be b < P -> fe_bytes (fe_norm (fe_set_bytes b)) = b).
Proof.
  intro L. destruct (set_bytes_ok b L) as [M V]. split; [exact V|]. split; [|apply bytes_set, L].
  destruct (norm_ok (fe_set_bytes b)) as [C E]; [apply (mag63 1); [lia|exact M]|].
  apply of_be_inj_len; [rewrite bytes_length, be_fixed_length; reflexivity|]. rewrite bytes_ok by exact C.
  pose proof (Z.mod_pos_bound (of_be b) P ltac:(reflexivity)) as B.
  rewrite of_be_be_fixed by (change (256 ^ Z.of_nat 32) with (2 ^ 256); lia). rewrite E, V. reflexivity.
Qed.
Theorem C55_byte_slice b : (length b <= 32)%nat -> fval (fe_set_slice b) = of_be b /\ mag 1 (fe_set_slice b).
Proof. intro L. destruct (set_slice_ok b L). auto. Qed.
Lemma ferm y : ~ (p256k1 | y) -> cong p256k1 (y ^ (p256k1 - 1)) 1.
Proof. intro D. apply fermat; [apply prime_p256k1|]. apply Zgcd_1_rel_prime, rel_prime_sym, prime_rel_prime; [apply prime_p256k1|exact D]. Qed.
(** Inverse: the inverse of every value that is not a multiple of the prime, and 0 for 0 *)
Theorem C55_inverse a : mag 8 a ->
  mag 1 (fe_inv a) /\
  (fval a mod P <> 0 -> (fval a * fval (fe_inv a)) mod P = 1) /\
  (fval a mod P = 0 -> fval (fe_norm (fe_inv a)) = 0).
Proof.
  intro A. destruct (inv_pw a A) as (M & _ & V). split; [exact M|]. split.
  - intro N. change 1 with (1 mod P). apply cong_eq; [reflexivity|]. change P with p256k1. rewrite V.
    replace (fval a * fval a ^ (p256k1 - 2)) with (fval a ^ (p256k1 - 1)).
    + apply ferm. intro D. apply N. apply Z.mod_divide in D; [exact D|discriminate].
    + replace (p256k1 - 1) with (Z.succ (p256k1 - 2)) by lia. rewrite Z.pow_succ_r by discriminate. reflexivity.
  - intro Z0. apply (norm_mod _ 0); [apply (mag63 1); [lia|exact M]|]. rewrite V.
    assert (C : cong p256k1 (fval a) 0) by (apply cong_eq; [reflexivity|rewrite Zmod_0_l; exact Z0]).
    rewrite C. rewrite Z.pow_0_l by reflexivity. reflexivity.
Qed.
(** Sqrt: a square root of every square *)
Theorem C55_sqrt a : mag 8 a -> mag 1 (fe_sqrt a) /\
  ((exists y, (y * y) mod P = fval a mod P) -> (fval (fe_sqrt a) * fval (fe_sqrt a)) mod P = fval a mod P).
Proof.
  intro A. destruct (sqrt_pw a A) as (M & _ & V). split; [exact M|]. intros [y Y]. apply cong_eq; [reflexivity|]. change P with p256k1. rewrite V.
  assert (C : cong p256k1 (fval a) (y * y)) by (apply cong_eq; [reflexivity|symmetry; exact Y]). rewrite C.
  set (e := (p256k1 + 1) / 4). rewrite <- Z.pow_add_r by (vm_compute; discriminate). rewrite <- Z.pow_2_r, <- Z.pow_mul_r by (vm_compute; discriminate).
  replace (2 * (e + e)) with ((p256k1 - 1) + 2) by (vm_compute; reflexivity). rewrite Z.pow_add_r by (vm_compute; discriminate).
  destruct (Zdivide_dec p256k1 y) as [D|D].
  - assert (Y0 : cong p256k1 y 0) by (apply cong_0; exact D). rewrite Y0. rewrite (Z.pow_2_r 0), Z.mul_0_r. reflexivity.
  - rewrite (ferm y D). rewrite Z.mul_1_l. reflexivity.
Qed.
(** the hypotheses hold: a value with all words at the limit of magnitude 8 *)
Theorem C55_example : let a := Fe 536870912 536870912 536870912 536870912 536870912 536870912 536870912 536870912 536870912 33554432 in
  mag 8 a /\ mag 63 (fe_mul_int a 7) /\ fval (fe_norm (fe_mul a (fe_inv a))) = 1 /\ (exists y, (y * y) mod P = fval (fe_sq a) mod P) /\
  fval (fe_norm (fe_neg (fe_int 5) 1)) = P - 5.
Proof.
  cbv zeta. split; [vm_compute; intuition discriminate|]. split; [vm_compute; intuition discriminate|].
  split; [vm_compute; reflexivity|]. split; [|vm_compute; reflexivity].
  eexists. apply cong_eq; [reflexivity|]. symmetry. apply sq_ok. vm_compute. intuition discriminate.
Qed.
