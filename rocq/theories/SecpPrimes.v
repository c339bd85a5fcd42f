(** SecpPrimes.v -- the secp256k1 field prime and group order are primes: Pocklington certificates (see Pocklington.v). *)
From Verif Require Import Base NumTh Euler Carmichael Jacobi Primes PropPrimes Pocklington SecpField SecpFieldThm.
From Coq Require Import Znumtheory.

Lemma small_prime' n : 1 < n < 4096 -> forallb (fun d => negb (n mod d =? 0) || (d =? n)) (zseq 2 63) = true -> prime n.
Proof.
  intros Hn F. rewrite forallb_forall in F.
  destruct (lpf_spec n ltac:(lia)) as [P [[k Hk] Le]]. pose proof (prime_ge_2 _ P) as P2. set (d := lpf n) in *. clearbody d.
  destruct (Z.eq_dec d n) as [->|N]; [exact P|exfalso].
  assert (K : 2 <= k) by nia.
  assert (D : d <= 63 \/ k <= 63) by nia. destruct D as [D|D].
  - specialize (F d). rewrite in_zseq in F by lia. specialize (F ltac:(lia)). rewrite Hk, Z.mod_mul in F by lia. destruct (Z.eqb_spec d (k * d)); [lia|discriminate].
  - specialize (F k). rewrite in_zseq in F by lia. specialize (F ltac:(lia)). rewrite Hk, Z.mul_comm, Z.mod_mul in F by lia. destruct (Z.eqb_spec k (d * k)); [nia|discriminate].
Qed.
Lemma kprime_107590001 : prime 107590001.
Proof. apply (pocklington_cert _ [53; 29; 7]); [constructor; [apply small_prime'; [lia|reflexivity]|]; constructor; [apply small_prime'; [lia|reflexivity]|]; constructor; [apply small_prime'; [lia|reflexivity]|]; constructor|vm_compute; reflexivity]. Qed.
Lemma kprime_20113 : prime 20113.
Proof. apply (pocklington_cert _ [419]); [constructor; [apply small_prime'; [lia|reflexivity]|]; constructor|vm_compute; reflexivity]. Qed.
Lemma kprime_1206781 : prime 1206781.
Proof. apply (pocklington_cert _ [20113]); [constructor; [exact kprime_20113|]; constructor|vm_compute; reflexivity]. Qed.
Lemma kprime_7240687 : prime 7240687.
Proof. apply (pocklington_cert _ [1206781]); [constructor; [exact kprime_1206781|]; constructor|vm_compute; reflexivity]. Qed.
Lemma kprime_96557 : prime 96557.
Proof. apply (pocklington_cert _ [239; 101]); [constructor; [apply small_prime'; [lia|reflexivity]|]; constructor; [apply small_prime'; [lia|reflexivity]|]; constructor|vm_compute; reflexivity]. Qed.
Lemma kprime_b128_977 : prime 255515944373312847190720520512484175977.
Proof. apply (pocklington_cert _ [107590001; 7240687; 96557]); [constructor; [exact kprime_107590001|]; constructor; [exact kprime_7240687|]; constructor; [exact kprime_96557|]; constructor|vm_compute; reflexivity]. Qed.
Lemma kprime_b237_371 : prime 205115282021455665897114700593932402728804164701536103180137503955397371.
Proof. apply (pocklington_cert _ [255515944373312847190720520512484175977]); [constructor; [exact kprime_b128_977|]; constructor|vm_compute; reflexivity]. Qed.
(** the field *)
Definition red_p256 (x : Z) : Z := fold_sub 256 4294968273 (fold_sub 256 4294968273 x).
Lemma red_p256_ok x : 0 <= x -> 0 <= red_p256 x /\ cong (2 ^ 256 - 4294968273) (red_p256 x) x.
Proof.
  intro X. unfold red_p256. destruct (fold_sub_ok 256 4294968273 x ltac:(lia) ltac:(lia) X) as [N1 E1]. set (y := fold_sub 256 4294968273 x) in *. clearbody y.
  destruct (fold_sub_ok 256 4294968273 y ltac:(lia) ltac:(lia) N1) as [N2 E2]. split; [exact N2|]. rewrite E2. exact E1.
Qed.
Lemma prime_p256k1 : prime p256k1.
Proof. apply (pocklington_red red_p256 _ [205115282021455665897114700593932402728804164701536103180137503955397371] red_p256_ok); [constructor; [exact kprime_b237_371|]; constructor|vm_compute; reflexivity]. Qed.
Lemma kprime_1627771 : prime 1627771.
Proof. apply (pocklington_cert _ [1871]); [constructor; [apply small_prime'; [lia|reflexivity]|]; constructor|vm_compute; reflexivity]. Qed.
Lemma kprime_297159362677 : prime 297159362677.
Proof. apply (pocklington_cert _ [1627771]); [constructor; [exact kprime_1627771|]; constructor|vm_compute; reflexivity]. Qed.
Lemma kprime_28181 : prime 28181.
Proof. apply (pocklington_cert _ [1409]); [constructor; [apply small_prime'; [lia|reflexivity]|]; constructor|vm_compute; reflexivity]. Qed.
Lemma kprime_545358713 : prime 545358713.
Proof. apply (pocklington_cert _ [28181]); [constructor; [exact kprime_28181|]; constructor|vm_compute; reflexivity]. Qed.
Lemma kprime_b95_179 : prime 29047611873442575647497758179.
Proof. apply (pocklington_cert _ [297159362677; 545358713]); [constructor; [exact kprime_297159362677|]; constructor; [exact kprime_545358713|]; constructor|vm_compute; reflexivity]. Qed.
Lemma kprime_b109_189 : prime 341948486974166000522343609283189.
Proof. apply (pocklington_cert _ [29047611873442575647497758179]); [constructor; [exact kprime_b95_179|]; constructor|vm_compute; reflexivity]. Qed.
Lemma kprime_9349 : prime 9349.
Proof. apply (pocklington_cert _ [41; 19]); [constructor; [apply small_prime'; [lia|reflexivity]|]; constructor; [apply small_prime'; [lia|reflexivity]|]; constructor|vm_compute; reflexivity]. Qed.
Lemma kprime_44706919 : prime 44706919.
Proof. apply (pocklington_cert _ [9349]); [constructor; [exact kprime_9349|]; constructor|vm_compute; reflexivity]. Qed.
Lemma kprime_120233 : prime 120233.
Proof. apply (pocklington_cert _ [113; 19]); [constructor; [apply small_prime'; [lia|reflexivity]|]; constructor; [apply small_prime'; [lia|reflexivity]|]; constructor|vm_compute; reflexivity]. Qed.
Lemma kprime_b68_449 : prime 174723607534414371449.
Proof. apply (pocklington_cert _ [44706919; 120233]); [constructor; [exact kprime_44706919|]; constructor; [exact kprime_120233|]; constructor|vm_compute; reflexivity]. Qed.
(** the group order *)
Definition n256_c : Z := 432420386565659656852420866394968145599.
Definition n256k1 : Z := 2 ^ 256 - n256_c.
Definition red_n256 (x : Z) : Z := fold_sub 256 n256_c (fold_sub 256 n256_c (fold_sub 256 n256_c x)).
Lemma red_n256_ok x : 0 <= x -> 0 <= red_n256 x /\ cong (2 ^ 256 - n256_c) (red_n256 x) x.
Proof.
  intro X. assert (C : 0 <= n256_c) by (vm_compute; discriminate). unfold red_n256.
  destruct (fold_sub_ok 256 n256_c x ltac:(lia) C X) as [N1 E1]. set (y := fold_sub 256 n256_c x) in *. clearbody y.
  destruct (fold_sub_ok 256 n256_c y ltac:(lia) C N1) as [N2 E2]. set (z := fold_sub 256 n256_c y) in *. clearbody z.
  destruct (fold_sub_ok 256 n256_c z ltac:(lia) C N2) as [N3 E3]. split; [exact N3|]. rewrite E3, E2. exact E1.
Qed.
Lemma prime_n256k1 : prime n256k1.
Proof. apply (pocklington_red red_n256 _ [341948486974166000522343609283189; 174723607534414371449] red_n256_ok); [constructor; [exact kprime_b109_189|]; constructor; [exact kprime_b68_449|]; constructor|vm_compute; reflexivity]. Qed.
