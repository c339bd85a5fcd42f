(** ToyCurve.v -- a small group satisfying [curve_laws], used only to show that hypotheses of theorems can
    be met and to run the model on concrete data in refutations.  The group is Z/88 (= 8 * 11, like the
    cofactor-8 structure of Ed25519); the point with discrete value k is (k mod 88, 1), and, like the real
    IsOnCurve, membership accepts unreduced coordinates. *)
From Verif Require Import Base BigInt Curve.
From Coq Require Import Znumtheory.

Definition toy : curve := {|
  c_on := fun _ y => y =? 1;
  c_add := fun p q => ((px p + px q) mod 88, 1);
  c_smul := fun p k => ((k * px p) mod 88, 1);
  c_bmul := fun k => ((k * 8) mod 88, 1);
  c_g := (8, 1);
  c_n := 11;
  c_id := (0, 1);
  c_canon := fun p => 0 <= px p < 88 /\ py p = 1 |}.

Lemma prime_11 : prime 11.
Proof.
  constructor; [lia|]. intros n Hn. unfold rel_prime. apply Zgcd_1_rel_prime.
  assert (n = 1 \/ n = 2 \/ n = 3 \/ n = 4 \/ n = 5 \/ n = 6 \/ n = 7 \/ n = 8 \/ n = 9 \/ n = 10) by lia.
  intuition (subst; reflexivity).
Qed.

Lemma toy_laws : curve_laws toy.
Proof.
  constructor.
  - exact prime_11.
  - cbn. split; [lia|reflexivity].
  - intros [x y] [_ E]. cbn in *. rewrite E. reflexivity.
  - cbn. lia.
  - cbn. lia.
  - intros [x y] [R E]. cbn in *. subst. assert (88 < 2 ^ 256) by reflexivity. lia.
  - intros p q _ _. cbn. split; [apply Z.mod_pos_bound; lia|reflexivity].
  - intros p q _ _. cbn. rewrite Z.add_comm. reflexivity.
  - intros p q r _ _ _. cbn. f_equal. rewrite Zplus_mod_idemp_l, Zplus_mod_idemp_r. f_equal. lia.
  - intros [x y] [R E]. cbn in *. subst. rewrite Z.mod_small by lia. reflexivity.
  - intros [x y] _. cbn. exists ((- x) mod 88, 1). cbn. split; [split; [apply Z.mod_pos_bound; lia|reflexivity]|].
    f_equal. rewrite Zplus_mod_idemp_r. replace (x + - x) with 0 by lia. reflexivity.
  - intros [x y] _. reflexivity.
  - intros [x y] k _ _. unfold c_smul, c_add, toy, px, py. cbn [fst snd]. f_equal. rewrite Zplus_mod_idemp_r. f_equal. lia.
  - reflexivity.
  - reflexivity.
  - discriminate.
  - intros [x y] _. unfold c_smul, c_n, c_id, toy, px. cbn [fst]. f_equal. change (8 * 11) with 88. rewrite Z.mul_comm. apply Z_mod_mult.
Qed.

(** a 32-byte hash for concrete runs (not collision resistant; only its length matters here) *)
Definition toy_hash (b : bytes) : bytes := be_fixed 32 (of_be b mod (2 ^ 255 - 19)).
Lemma toy_hash_len b : length (toy_hash b) = 32%nat.
Proof. apply be_fixed_length. Qed.
