(** Xor.v -- facts about crypto/alice/utils/utils.go 302-315 Xor: zero-extended xor is a commutative monoid. *)
From Verif Require Import Base BigInt Keygen.
From Coq Require Import Permutation.

Lemma bxor_bz a b : bz (bxor a b) = Z.lxor (bz a) (bz b).
Proof.
  unfold bxor. rewrite bz_zb. apply Z.mod_small. pose proof (bz_range a) as Ha. pose proof (bz_range b) as Hb.
  split; [apply Z.lxor_nonneg; lia|].
  destruct (Z.eq_dec (Z.lxor (bz a) (bz b)) 0) as [E|E]; [lia|].
  assert (0 <= Z.lxor (bz a) (bz b)) by (apply Z.lxor_nonneg; lia).
  apply (Z.log2_lt_pow2 _ 8); [lia|].
  eapply Z.le_lt_trans; [apply Z.log2_lxor; lia|].
  assert (L : forall z, 0 <= z < 256 -> Z.log2 z < 8).
  { intros z Hz. destruct (Z.eq_dec z 0) as [->|]; [reflexivity|]. apply Z.log2_lt_pow2; lia. }
  apply Z.max_lub_lt; apply L; lia.
Qed.
Lemma bxor_comm a b : bxor a b = bxor b a.
Proof. apply bz_inj. rewrite !bxor_bz. apply Z.lxor_comm. Qed.
Lemma bxor_assoc a b c : bxor (bxor a b) c = bxor a (bxor b c).
Proof. apply bz_inj. rewrite !bxor_bz. apply Z.lxor_assoc. Qed.
Lemma bxor_0_r a : bxor a x00 = a.
Proof. apply bz_inj. rewrite bxor_bz. apply Z.lxor_0_r. Qed.
Lemma bxor_0_l a : bxor x00 a = a.
Proof. rewrite bxor_comm. apply bxor_0_r. Qed.
Lemma bxor_self a : bxor a a = x00.
Proof. apply bz_inj. rewrite bxor_bz. apply Z.lxor_nilpotent. Qed.

Lemma xor_pre_length a b : (length b <= length a)%nat -> length (xor_pre a b) = length a.
Proof. revert b; induction a as [|x a IH]; intros [|y b] H; cbn in *; try lia. rewrite IH by lia. reflexivity. Qed.
Lemma xor_length a b : length (xor a b) = Nat.max (length a) (length b).
Proof. unfold xor. destruct (Nat.ltb_spec (length a) (length b)); rewrite xor_pre_length; lia. Qed.
Lemma xor_pre_nth a b k : (length b <= length a)%nat -> nth k (xor_pre a b) x00 = bxor (nth k a x00) (nth k b x00).
Proof.
  revert b k; induction a as [|x a IH]; intros [|y b] k H; cbn in *; try lia.
  - destruct k; cbn; rewrite ?bxor_0_r; reflexivity.
  - destruct k; cbn; rewrite ?bxor_0_r; reflexivity.
  - destruct k; [reflexivity|]. cbn. apply IH. lia.
Qed.
Lemma xor_nth a b k : nth k (xor a b) x00 = bxor (nth k a x00) (nth k b x00).
Proof.
  unfold xor. destruct (Nat.ltb_spec (length a) (length b)); rewrite xor_pre_nth by lia; auto. apply bxor_comm.
Qed.
Lemma bytes_ext (a b : bytes) : length a = length b -> (forall k, nth k a x00 = nth k b x00) -> a = b.
Proof.
  revert b; induction a as [|x a IH]; intros [|y b] L E; cbn in L; try lia; [reflexivity|].
  f_equal; [apply (E 0%nat)|]. apply IH; [lia|]. intro k. apply (E (S k)).
Qed.
Lemma xor_comm a b : xor a b = xor b a.
Proof. apply bytes_ext; [rewrite !xor_length; lia|]. intro k. rewrite !xor_nth. apply bxor_comm. Qed.
Lemma xor_assoc a b c : xor (xor a b) c = xor a (xor b c).
Proof. apply bytes_ext; [rewrite !xor_length; lia|]. intro k. rewrite !xor_nth. apply bxor_assoc. Qed.
Lemma xor_nil_r a : xor a [] = a.
Proof. apply bytes_ext; [rewrite !xor_length; cbn; lia|]. intro k. rewrite xor_nth. destruct k; apply bxor_0_r. Qed.
Lemma xor_nil_l a : xor [] a = a.
Proof. rewrite xor_comm. apply xor_nil_r. Qed.
(** xor with the same string twice restores any string at least as long *)
Lemma xor_cancel a b : (length b <= length a)%nat -> xor (xor a b) b = a.
Proof.
  intro H. apply bytes_ext; [rewrite !xor_length; lia|]. intro k. rewrite !xor_nth, bxor_assoc, bxor_self. apply bxor_0_r.
Qed.

Definition xors (l : list bytes) : bytes := fold_right xor [] l.
Lemma xors_perm l l' : Permutation l l' -> xors l = xors l'.
Proof.
  unfold xors. induction 1; cbn [fold_right]; auto; [congruence| |congruence].
  rewrite <- !xor_assoc. f_equal. apply xor_comm.
Qed.
Lemma fold_left_xor l a : fold_left xor l a = xor a (xors l).
Proof. revert a; induction l as [|x l IH]; intro a; cbn; [symmetry; apply xor_nil_r|]. rewrite IH, xor_assoc. reflexivity. Qed.
