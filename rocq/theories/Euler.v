(** Euler.v -- Fermat's little theorem over Z, and its lift modulo p^2, from the standard library alone. *)
From Verif Require Import Base NumTh.
From Coq Require Import Znumtheory Permutation.

Definition zprod (l : list Z) : Z := fold_right Z.mul 1 l.
Lemma zprod_perm l l' : Permutation l l' -> zprod l = zprod l'.
Proof. induction 1; unfold zprod in *; cbn [fold_right]; try congruence; ring. Qed.
(** 1, 2, ..., p-1 *)
Definition residues (p : Z) : list Z := map Z.of_nat (seq 1 (Z.to_nat (p - 1))).
Lemma in_residues p x : In x (residues p) <-> 1 <= x < p.
Proof.
  unfold residues. rewrite in_map_iff. split.
  - intros (n & <- & H). apply in_seq in H. lia.
  - intro H. exists (Z.to_nat x). split; [lia|]. apply in_seq. lia.
Qed.
Lemma nodup_residues p : NoDup (residues p).
Proof. apply FinFun.Injective_map_NoDup; [intros a b; lia|apply seq_NoDup]. Qed.

Lemma zprod_scale p a l : cong p (zprod (map (fun i => (a * i) mod p) l)) (a ^ Z.of_nat (length l) * zprod l).
Proof.
  induction l as [|x l IH]; [exists 0; cbn; ring|].
  cbn [map zprod fold_right length]. fold (zprod l). fold (zprod (map (fun i => (a * i) mod p) l)). rewrite IH.
  replace (Z.of_nat (S (length l))) with (Z.succ (Z.of_nat (length l))) by lia. rewrite Z.pow_succ_r by lia.
  assert (H : cong p ((a * x) mod p) (a * x)).
  { destruct (Z.eq_dec p 0) as [->|Hp]; [rewrite Zmod_0_r; reflexivity|].
    exists (- (a * x / p)). rewrite Z.mod_eq by exact Hp. ring. }
  rewrite H. exists 0. ring.
Qed.
Lemma fermat p a : prime p -> Z.gcd a p = 1 -> cong p (a ^ (p - 1)) 1.
Proof.
  intros Pp Ga. assert (Hp : 1 < p) by (destruct Pp; auto).
  assert (PM : Permutation (map (fun i => (a * i) mod p) (residues p)) (residues p)).
  { apply NoDup_Permutation_bis; [|rewrite map_length; lia|].
    - assert (G : forall l, NoDup l -> (forall x, In x l -> 1 <= x < p) -> NoDup (map (fun i => (a * i) mod p) l)).
      { induction 1 as [|x l Hx Hl IH]; intro R; cbn [map]; constructor.
        - rewrite in_map_iff. intros (y & E & Iy). apply Hx. apply cong_eq in E; [|lia]. apply unit_cancel in E; [|exact Ga].
          pose proof (R x (or_introl eq_refl)). pose proof (R y (or_intror Iy)).
          apply (cong_small p) in E; [subst; exact Iy|lia|lia].
        - apply IH. intros y Hy. apply R. right; exact Hy. }
      apply G; [apply nodup_residues|]. intros x Hx. apply in_residues; exact Hx.
    - intros y. rewrite in_map_iff. intros (x & <- & Hx). apply in_residues in Hx. apply in_residues.
      pose proof (Z.mod_pos_bound (a * x) p ltac:(lia)). assert ((a * x) mod p <> 0); [|lia].
      intro E. apply Z.mod_divide in E; [|lia]. apply Gauss in E.
      + apply Z.divide_pos_le in E; lia.
      + apply Zgcd_1_rel_prime. rewrite Z.gcd_comm. exact Ga. }
  pose proof (zprod_scale p a (residues p)) as H. rewrite (zprod_perm _ _ PM) in H.
  assert (Len : Z.of_nat (length (residues p)) = p - 1) by (unfold residues; rewrite map_length, seq_length; lia).
  rewrite Len in H.
  assert (GP : Z.gcd (zprod (residues p)) p = 1).
  { assert (G : forall l, (forall x, In x l -> 1 <= x < p) -> Z.gcd (zprod l) p = 1).
    { induction l as [|x l IH]; intro R; cbn [zprod fold_right]; [apply Z.gcd_1_l|]. apply gcd_mul_1.
      - apply Zgcd_1_rel_prime. apply rel_prime_sym. apply prime_rel_prime; auto. intro D.
        pose proof (R x (or_introl eq_refl)). apply Z.divide_pos_le in D; lia.
      - apply IH. intros y Hy. apply R. right; exact Hy. }
    apply G. intros x Hx. apply in_residues; exact Hx. }
  apply (unit_cancel p (zprod (residues p))); [exact GP|]. rewrite Z.mul_1_r. rewrite (Z.mul_comm (zprod _)). symmetry. exact H.
Qed.
Lemma one_plus_t p t k : 0 <= k -> cong (p * p) ((1 + t * p) ^ k) (1 + k * t * p).
Proof.
  revert k. apply natlike_ind; [rewrite Z.pow_0_r; exists 0; ring|].
  intros k Hk IH. rewrite Z.pow_succ_r by lia. rewrite IH. exists (t * t * k). unfold Z.succ. ring.
Qed.
Lemma fermat_sq p a : prime p -> Z.gcd a p = 1 -> cong (p * p) (a ^ (p * (p - 1))) 1.
Proof.
  intros Pp Ga. assert (Hp : 1 < p) by (destruct Pp; auto). destruct (fermat p a Pp Ga) as [t Ht].
  rewrite (Z.mul_comm p (p - 1)), Z.pow_mul_r by lia. replace (a ^ (p - 1)) with (1 + t * p) by lia.
  rewrite one_plus_t by lia. exists t. ring.
Qed.
