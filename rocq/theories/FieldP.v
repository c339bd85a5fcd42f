(** FieldP.v -- the field of integers modulo a prime with Leibniz equality (pure mathematics, no Go code modelled here):
    the coordinates of the curve tss.Edwards() (tss/curve.go 24-32) live in it. *)
From Verif Require Import Base NumTh Euler.
From Coq Require Import Znumtheory Field Eqdep_dec.

Section Fp.
  Variable p : Z.
  Record fp := Fp { fv : Z; fok : (fv mod p =? fv) = true }.
  Lemma fp_eq a b : fv a = fv b -> a = b.
  Proof. destruct a as [a A], b as [b B]; cbn. intros ->. f_equal. apply UIP_dec. apply Bool.bool_dec. Qed.
  Lemma mod_ok z : ((z mod p) mod p =? z mod p) = true. Proof. apply Z.eqb_eq. apply Zmod_mod. Qed.
  Definition fz (z : Z) : fp := Fp (z mod p) (mod_ok z).
  Lemma fz_fv a : fz (fv a) = a. Proof. apply fp_eq. cbn. apply Z.eqb_eq. apply fok. Qed.
  Lemma fz_mod a b : a mod p = b mod p -> fz a = fz b. Proof. intro H. apply fp_eq. exact H. Qed.
  Lemma fz_inj a b : fz a = fz b -> a mod p = b mod p. Proof. intro H. apply (f_equal fv) in H. exact H. Qed.
  Definition f_eqb (a b : fp) : bool := fv a =? fv b.
  Lemma f_eqb_eq a b : f_eqb a b = true <-> a = b.
  Proof. unfold f_eqb. rewrite Z.eqb_eq. split; [apply fp_eq|congruence]. Qed.
  Definition fp_dec (a b : fp) : {a = b} + {a <> b}.
  Proof. destruct (f_eqb a b) eqn:E; [left; now apply f_eqb_eq|right; intro X; apply f_eqb_eq in X; congruence]. Defined.

  Definition f_add a b := fz (fv a + fv b).
  Definition f_mul a b := fz (fv a * fv b).
  Definition f_sub a b := fz (fv a - fv b).
  Definition f_opp a := fz (- fv a).
  Definition f_inv a := fz (match invm (fv a) p with Some u => u | None => 0 end).
  Definition f_div a b := f_mul a (f_inv b).

  Lemma fz_add a b : fz (a + b) = f_add (fz a) (fz b). Proof. apply fp_eq. cbn. apply Zplus_mod. Qed.
  Lemma fz_mul a b : fz (a * b) = f_mul (fz a) (fz b). Proof. apply fp_eq. cbn. apply Zmult_mod. Qed.
  Lemma fz_sub a b : fz (a - b) = f_sub (fz a) (fz b). Proof. apply fp_eq. cbn. apply Zminus_mod. Qed.
  Lemma fz_opp a : fz (- a) = f_opp (fz a).
  Proof. apply fp_eq. cbn. rewrite <- (Z.sub_0_l a), <- (Z.sub_0_l (a mod p)). rewrite Zminus_mod_idemp_r. reflexivity. Qed.

  Hypothesis P : prime p.
  Lemma p_ge2 : 2 <= p. Proof. apply prime_ge_2, P. Qed.
  Lemma fv_range a : 0 <= fv a < p.
  Proof. pose proof p_ge2. pose proof (fok a) as H'. apply Z.eqb_eq in H'. rewrite <- H'. apply Z.mod_pos_bound. lia. Qed.
  Lemma fv_fz z : 0 <= z < p -> fv (fz z) = z. Proof. intro. cbn. apply Z.mod_small. auto. Qed.
  Lemma fz_0_div z : fz z = fz 0 <-> (p | z).
  Proof. pose proof p_ge2. split; intro E.
    - apply fz_inj in E. rewrite Zmod_0_l in E. apply Zmod_divide; [lia|exact E].
    - apply fz_mod. rewrite Zmod_0_l. apply Zdivide_mod. exact E. Qed.

  Lemma f_inv_l a : a <> fz 0 -> f_mul (f_inv a) a = fz 1.
  Proof.
    intro N. pose proof p_ge2. pose proof (fv_range a) as R.
    assert (G : Z.gcd (fv a) p = 1).
    { apply Zgcd_1_rel_prime, rel_prime_sym, prime_rel_prime; [exact P|]. intro D. apply N. rewrite <- (fz_fv a). now apply fz_0_div. }
    destruct (invm_some (fv a) p ltac:(lia) G) as [u [E [U C]]]. unfold f_inv. rewrite E.
    rewrite <- (fz_fv a). rewrite <- fz_mul. apply fz_mod. apply cong_eq; [lia|]. rewrite Z.mul_comm. exact C.
  Qed.
  Lemma f_integral a b : f_mul a b = fz 0 -> a = fz 0 \/ b = fz 0.
  Proof.
    intro H. rewrite <- (fz_fv a), <- (fz_fv b), <- fz_mul in H. apply fz_0_div in H. apply prime_mult in H; [|exact P].
    destruct H as [H|H]; [left; rewrite <- (fz_fv a)|right; rewrite <- (fz_fv b)]; now apply fz_0_div.
  Qed.
  Lemma fp_field : field_theory (fz 0) (fz 1) f_add f_mul f_sub f_opp f_div f_inv (@eq fp).
  Proof.
    constructor; [constructor| | |].
    all: try (intros x; rewrite <- (fz_fv x)).
    all: try (intros y; rewrite <- (fz_fv y)).
    all: try (intros z; rewrite <- (fz_fv z)).
    all: rewrite <- ?fz_opp; rewrite <- ?fz_add, <- ?fz_mul, <- ?fz_sub; rewrite <- ?fz_add, <- ?fz_mul, <- ?fz_sub.
    all: try (f_equal; ring).
    - intro H. apply fz_inj in H. pose proof p_ge2. rewrite Z.mod_small in H by lia. rewrite Zmod_0_l in H. discriminate.
    - reflexivity.
    - intro H. apply f_inv_l. exact H.
  Qed.

  (** all elements *)
  Definition fp_all : list fp := map (fun k => fz (Z.of_nat k)) (seq 0 (Z.to_nat p)).
  Lemma in_fp_all a : In a fp_all.
  Proof. pose proof (fv_range a). apply in_map_iff. exists (Z.to_nat (fv a)). split; [rewrite Z2Nat.id by lia; apply fz_fv|]. apply in_seq. lia. Qed.
  Lemma fp_all_len : Z.of_nat (length fp_all) = p.
  Proof. unfold fp_all. rewrite map_length, seq_length. pose proof p_ge2. lia. Qed.

  (** powers *)
  Lemma f_fermat a : a <> fz 0 -> fz (fv a ^ (p - 1)) = fz 1.
  Proof.
    intro N. apply fz_mod. apply cong_eq; [pose proof p_ge2; lia|]. apply fermat; [exact P|].
    apply Zgcd_1_rel_prime, rel_prime_sym, prime_rel_prime; [exact P|]. intro D. apply N. rewrite <- (fz_fv a). now apply fz_0_div.
  Qed.
End Fp.
