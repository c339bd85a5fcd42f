(** BigInt.v -- Go [math/big.Int] byte conversions and fixed-width integers.

    Models the library calls [big.Int.SetBytes], [big.Int.Bytes], [big.Int.FillBytes],
    [binary.LittleEndian.PutUint64/PutUint32] as used in /repo (e.g. common/hash.go 33-60,
    eddsacmp/onsign/utils.go 13-63, crypto/ecpoint.go 165-205). *)
From Verif Require Import Base.

(** [new(big.Int).SetBytes(l)]: big-endian unsigned. *)
Definition of_be (l : bytes) : Z := fold_left (fun a b => a * 256 + bz b) l 0.

(** [z.Bytes()]: minimal big-endian bytes of |z| (the sign is dropped; 0 gives no bytes). *)
Fixpoint be_aux (fuel : nat) (z : Z) (acc : bytes) : bytes :=
  match fuel with
  | O => acc
  | S f => if z <=? 0 then acc else be_aux f (z / 256) (zb z :: acc)
  end.
Definition to_be (z : Z) : bytes := be_aux (S (Z.to_nat (Z.log2 (Z.abs z)))) (Z.abs z) [].

(** little-endian fixed width, [n] bytes, of z mod 256^n *)
Fixpoint le_fixed (n : nat) (z : Z) : bytes :=
  match n with O => [] | S k => zb z :: le_fixed k (z / 256) end.
Fixpoint of_le (l : bytes) : Z :=
  match l with [] => 0 | b :: r => bz b + 256 * of_le r end.
(** big-endian fixed width ([FillBytes] when the value fits) *)
Definition be_fixed (n : nat) (z : Z) : bytes := rev (le_fixed n z).

Fixpoint strip0 (l : bytes) : bytes :=
  match l with
  | [] => []
  | b :: r => if bz b =? 0 then strip0 r else l
  end.

(** ** Basic facts *)
Lemma pow256_pos n : 0 < 256 ^ Z.of_nat n.
Proof. apply Z.pow_pos_nonneg; lia. Qed.
Lemma pow256_S n : 256 ^ Z.of_nat (S n) = 256 * 256 ^ Z.of_nat n.
Proof. rewrite Nat2Z.inj_succ, Z.pow_succ_r; lia. Qed.

Lemma of_be_from a l :
  fold_left (fun a b => a * 256 + bz b) l a = a * 256 ^ Z.of_nat (length l) + of_be l.
Proof.
  unfold of_be. revert a; induction l as [|b l IH]; intro a.
  - simpl. lia.
  - cbn [fold_left length]. rewrite IH, (IH (0 * 256 + bz b)), pow256_S. lia.
Qed.
Lemma of_be_nil : of_be [] = 0. Proof. reflexivity. Qed.
Lemma of_be_cons b l : of_be (b :: l) = bz b * 256 ^ Z.of_nat (length l) + of_be l.
Proof. unfold of_be at 1. cbn [fold_left]. rewrite of_be_from. lia. Qed.
Lemma of_be_app a b : of_be (a ++ b) = of_be a * 256 ^ Z.of_nat (length b) + of_be b.
Proof.
  unfold of_be at 1. rewrite fold_left_app.
  change (fold_left (fun a b => a * 256 + bz b) a 0) with (of_be a). apply of_be_from.
Qed.
Lemma of_be_snoc l b : of_be (l ++ [b]) = of_be l * 256 + bz b.
Proof.
  rewrite of_be_app. cbn [length]. change (256 ^ Z.of_nat 1) with 256.
  rewrite (of_be_cons b []). cbn [length]. change (256 ^ Z.of_nat 0) with 1. rewrite of_be_nil. lia.
Qed.
Lemma of_be_range l : 0 <= of_be l < 256 ^ Z.of_nat (length l).
Proof.
  induction l as [|b l IH]; [cbn; lia|].
  rewrite of_be_cons. cbn [length]. rewrite pow256_S.
  pose proof (bz_range b). pose proof (pow256_pos (length l)). nia.
Qed.

Lemma be_aux_app fuel z acc : be_aux fuel z acc = be_aux fuel z [] ++ acc.
Proof.
  revert z acc; induction fuel as [|f IH]; intros z acc; [reflexivity|].
  cbn [be_aux]. destruct (z <=? 0); [reflexivity|].
  rewrite IH, (IH _ [zb z]), <- app_assoc. reflexivity.
Qed.

Lemma be_aux_correct fuel z :
  0 <= z -> z < 2 ^ Z.of_nat fuel -> of_be (be_aux fuel z []) = z.
Proof.
  revert z; induction fuel as [|f IH]; intros z H0 H1.
  - change (2 ^ Z.of_nat 0) with 1 in H1. cbn. lia.
  - cbn [be_aux]. destruct (Z.leb_spec z 0); [assert (z = 0) by lia; subst; reflexivity|].
    rewrite be_aux_app, of_be_snoc, IH.
    + rewrite bz_zb. lia.
    + lia.
    + rewrite Nat2Z.inj_succ, Z.pow_succ_r in H1 by lia.
      assert (0 < 2 ^ Z.of_nat f) by (apply Z.pow_pos_nonneg; lia). lia.
Qed.

Lemma log2_fuel z : 0 <= z -> z < 2 ^ Z.of_nat (S (Z.to_nat (Z.log2 z))).
Proof.
  intro H. rewrite Nat2Z.inj_succ, Z2Nat.id by apply Z.log2_nonneg.
  destruct (Z.eq_dec z 0) as [->|Hn]; [reflexivity|]. apply Z.log2_spec. lia.
Qed.

Lemma of_be_to_be z : of_be (to_be z) = Z.abs z.
Proof. unfold to_be. apply be_aux_correct; [lia|]. apply log2_fuel; lia. Qed.

Lemma of_be_to_be_nonneg z : 0 <= z -> of_be (to_be z) = z.
Proof. intro. rewrite of_be_to_be. lia. Qed.

Lemma to_be_inj a b : 0 <= a -> 0 <= b -> to_be a = to_be b -> a = b.
Proof. intros Ha Hb H. rewrite <- (of_be_to_be_nonneg a Ha), H. apply of_be_to_be_nonneg; exact Hb. Qed.

Lemma to_be_0 : to_be 0 = []. Proof. reflexivity. Qed.

(** no leading zero byte *)
Definition no_lead0 (l : bytes) : Prop := match l with [] => True | b :: _ => bz b <> 0 end.

Lemma be_aux_no_lead0 fuel z acc :
  0 <= z -> z < 2 ^ Z.of_nat fuel -> (0 < z \/ no_lead0 acc) -> no_lead0 (be_aux fuel z acc).
Proof.
  revert z acc; induction fuel as [|f IH]; intros z acc H0 H1 H2.
  - change (2 ^ Z.of_nat 0) with 1 in H1. destruct H2; [lia|exact H].
  - cbn [be_aux]. destruct (Z.leb_spec z 0); [destruct H2; [lia|assumption]|].
    apply IH.
    + lia.
    + rewrite Nat2Z.inj_succ, Z.pow_succ_r in H1 by lia.
      assert (0 < 2 ^ Z.of_nat f) by (apply Z.pow_pos_nonneg; lia). lia.
    + destruct (Z.eq_dec (z / 256) 0) as [E|E]; [right|left; lia].
      cbn [no_lead0]. rewrite bz_zb. lia.
Qed.
Lemma to_be_no_lead0 z : no_lead0 (to_be z).
Proof.
  unfold to_be. apply be_aux_no_lead0; [lia|apply log2_fuel; lia|right; exact I].
Qed.

Lemma of_be_strip0 l : of_be (strip0 l) = of_be l.
Proof.
  induction l as [|b l IH]; [reflexivity|]. cbn [strip0].
  destruct (Z.eqb_spec (bz b) 0) as [E|E]; [|reflexivity].
  rewrite IH, of_be_cons, E. lia.
Qed.
Lemma strip0_no_lead0 l : no_lead0 (strip0 l).
Proof.
  induction l as [|b l IH]; [exact I|]. cbn [strip0].
  destruct (Z.eqb_spec (bz b) 0); [exact IH|exact n].
Qed.
Lemma strip0_id l : no_lead0 l -> strip0 l = l.
Proof. destruct l as [|b l]; [reflexivity|]. cbn. intro H. destruct (Z.eqb_spec (bz b) 0); [contradiction|reflexivity]. Qed.

(** fixed-length big-endian strings are determined by value *)
Lemma of_be_inj_len a b : length a = length b -> of_be a = of_be b -> a = b.
Proof.
  revert b; induction a as [|x a IH]; intros [|y b] HL HV; try discriminate; [reflexivity|].
  rewrite !of_be_cons in HV. inversion HL as [HL'].
  pose proof (of_be_range a) as Ra. pose proof (of_be_range b) as Rb.
  rewrite HL' in HV, Ra. pose proof (pow256_pos (length b)).
  assert (bz x = bz y) by nia. f_equal; [apply bz_inj; assumption|]. apply IH; [exact HL'|nia].
Qed.

Lemma no_lead0_len l : no_lead0 l -> l <> [] -> 256 ^ (Z.of_nat (length l) - 1) <= of_be l.
Proof.
  destruct l as [|b l]; [congruence|]. cbn [no_lead0]. intros H _.
  rewrite of_be_cons. cbn [length]. rewrite Nat2Z.inj_succ.
  replace (Z.succ (Z.of_nat (length l)) - 1) with (Z.of_nat (length l)) by lia.
  pose proof (bz_range b). pose proof (pow256_pos (length l)). pose proof (of_be_range l). nia.
Qed.

Lemma of_be_inj_min a b : no_lead0 a -> no_lead0 b -> of_be a = of_be b -> a = b.
Proof.
  intros Ha Hb H.
  destruct (Nat.eq_dec (length a) (length b)) as [E|E]; [apply of_be_inj_len; assumption|].
  exfalso.
  assert (W : forall u v, no_lead0 u -> no_lead0 v -> of_be u = of_be v -> (length u < length v)%nat -> False).
  { clear. intros u v Hu Hv H HL.
    pose proof (of_be_range u) as Ru.
    assert (v <> []) by (intro; subst; cbn in HL; lia).
    pose proof (no_lead0_len v Hv H0) as Lv.
    assert (256 ^ Z.of_nat (length u) <= 256 ^ (Z.of_nat (length v) - 1)) by (apply Z.pow_le_mono_r; lia).
    lia. }
  destruct (Nat.lt_total (length a) (length b)) as [L|[L|L]]; [eapply W; [exact Ha|exact Hb|..]; auto|congruence|].
  eapply W; [exact Hb|exact Ha|..]; auto.
Qed.

Lemma to_be_of_be l : to_be (of_be l) = strip0 l.
Proof.
  apply of_be_inj_min; [apply to_be_no_lead0|apply strip0_no_lead0|].
  rewrite of_be_to_be_nonneg by apply of_be_range. symmetry; apply of_be_strip0.
Qed.

Lemma to_be_length z n : Z.abs z < 256 ^ Z.of_nat n -> (length (to_be z) <= n)%nat.
Proof.
  intro H. destruct (Nat.le_gt_cases (length (to_be z)) n) as [|G]; [assumption|exfalso].
  assert (to_be z <> []) by (intro E; rewrite E in G; cbn in G; lia).
  pose proof (no_lead0_len _ (to_be_no_lead0 z) H0) as L. rewrite of_be_to_be in L.
  assert (256 ^ Z.of_nat n <= 256 ^ (Z.of_nat (length (to_be z)) - 1)) by (apply Z.pow_le_mono_r; lia).
  lia.
Qed.

Lemma to_be_nil z : to_be z = [] -> z = 0.
Proof. intro H. pose proof (of_be_to_be z) as E. rewrite H, of_be_nil in E. lia. Qed.
Lemma to_be_nonempty z : 0 < z -> to_be z <> [].
Proof. intros H E. apply to_be_nil in E. lia. Qed.

Lemma strip0_length l : (length (strip0 l) <= length l)%nat.
Proof. induction l as [|b l IH]; [auto|]. cbn [strip0]. destruct (bz b =? 0); cbn [length]; lia. Qed.

(** ** Fixed-width *)
Lemma le_fixed_length n z : length (le_fixed n z) = n.
Proof. revert z; induction n as [|n IH]; intro z; cbn; auto. Qed.
Lemma of_le_le_fixed n z : of_le (le_fixed n z) = z mod 256 ^ Z.of_nat n.
Proof.
  revert z; induction n as [|n IH]; intro z.
  - cbn [le_fixed of_le]. change (256 ^ Z.of_nat 0) with 1. rewrite Z.mod_1_r. reflexivity.
  - cbn [le_fixed of_le]. rewrite IH, bz_zb, pow256_S.
    rewrite Zmod_recombine || idtac.
    pose proof (pow256_pos n). rewrite Z.rem_mul_r by lia. lia.
Qed.
Lemma of_le_range l : 0 <= of_le l < 256 ^ Z.of_nat (length l).
Proof.
  induction l as [|b l IH]; [cbn; lia|]. cbn [of_le length]. rewrite pow256_S.
  pose proof (bz_range b). nia.
Qed.
Lemma le_fixed_of_le l : le_fixed (length l) (of_le l) = l.
Proof.
  induction l as [|b l IH]; [reflexivity|]. cbn [length le_fixed of_le].
  pose proof (bz_range b) as Hb. f_equal.
  - apply bz_inj. rewrite bz_zb. rewrite Z.mul_comm, Z_mod_plus_full. apply Z.mod_small; exact Hb.
  - replace ((bz b + 256 * of_le l) / 256) with (of_le l) by (rewrite Z.mul_comm, Z_div_plus_full by lia; rewrite Z.div_small by lia; lia).
    exact IH.
Qed.
Lemma of_le_le_fixed_small n z : 0 <= z < 256 ^ Z.of_nat n -> of_le (le_fixed n z) = z.
Proof. intro. rewrite of_le_le_fixed. apply Z.mod_small; assumption. Qed.
Lemma le_fixed_inj n a b :
  0 <= a < 256 ^ Z.of_nat n -> 0 <= b < 256 ^ Z.of_nat n -> le_fixed n a = le_fixed n b -> a = b.
Proof. intros Ha Hb H. rewrite <- (of_le_le_fixed_small n a Ha), H. apply of_le_le_fixed_small; exact Hb. Qed.
Lemma of_be_rev l : of_be (rev l) = of_le l.
Proof.
  induction l as [|b l IH]; [reflexivity|]. cbn [rev of_le]. rewrite of_be_snoc, IH. lia.
Qed.
Lemma of_le_rev l : of_le (rev l) = of_be l.
Proof. rewrite <- of_be_rev, rev_involutive. reflexivity. Qed.
Lemma be_fixed_length n z : length (be_fixed n z) = n.
Proof. unfold be_fixed. rewrite rev_length. apply le_fixed_length. Qed.
Lemma of_be_be_fixed n z : 0 <= z < 256 ^ Z.of_nat n -> of_be (be_fixed n z) = z.
Proof. intro H. unfold be_fixed. rewrite of_be_rev. apply of_le_le_fixed_small; exact H. Qed.
Lemma be_fixed_of_be l : be_fixed (length l) (of_be l) = l.
Proof.
  apply of_be_inj_len; [apply be_fixed_length|]. apply of_be_be_fixed. apply of_be_range.
Qed.

Lemma of_be_zeros n l : of_be (repeat (zb 0) n ++ l) = of_be l.
Proof.
  rewrite of_be_app. replace (of_be (repeat (zb 0) n)) with 0; [lia|].
  induction n as [|n IH]; [reflexivity|]. cbn [repeat]. rewrite of_be_cons, <- IH, bz_zb. reflexivity.
Qed.

(** left-padding the minimal form to [n] bytes gives the fixed-width form *)
Lemma be_fixed_pad n z : 0 <= z < 256 ^ Z.of_nat n ->
  be_fixed n z = repeat (zb 0) (n - length (to_be z)) ++ to_be z.
Proof.
  intro H. assert (L : (length (to_be z) <= n)%nat) by (apply to_be_length; lia).
  apply of_be_inj_len.
  - rewrite be_fixed_length, app_length, repeat_length. lia.
  - rewrite of_be_be_fixed by exact H. rewrite of_be_zeros. symmetry; apply of_be_to_be_nonneg; lia.
Qed.
