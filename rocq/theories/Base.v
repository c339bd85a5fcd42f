(** Base.v -- Go-level basics shared by all model files.

    Models: the Go runtime behaviours used throughout /repo (bytes, slices, panics).
    No definition here corresponds to a single repo function; each comment says which
    Go language or library behaviour it stands for. *)
From Coq Require Export Strings.Byte.
From Coq Require Export Strings.String.
From Coq Require Export List ZArith Lia Bool Arith.
From Coq Require Export Init.Byte.
From Coq Require Export ZifyBool ZifyNat ZifyN.
Export ListNotations.
Global Open Scope Z_scope.
Ltac Zify.zify_post_hook ::= Z.div_mod_to_equations.

(** Result of running Go code: a normal return, or a run-time panic (nil dereference, slice
    index out of range, failed type assertion ...).  A panic is not an error return. *)
Inductive outcome (A : Type) : Type :=
| Ret (a : A)
| Panic.
Arguments Ret {A} a.
Arguments Panic {A}.

Definition obind {A B} (m : outcome A) (f : A -> outcome B) : outcome B :=
  match m with Ret a => f a | Panic => Panic end.
Notation "'let!' x ':=' m 'in' f" := (obind m (fun x => f))
  (at level 200, x pattern, m at level 100, f at level 200, right associativity).

(** Go byte <-> integer. *)
Definition bz (b : byte) : Z := Z.of_N (Byte.to_N b).
Definition zb (z : Z) : byte :=
  match Byte.of_N (Z.to_N (z mod 256)) with Some b => b | None => x00 end.

Lemma bz_range b : 0 <= bz b < 256.
Proof. unfold bz. pose proof (Byte.to_N_bounded b). lia. Qed.

Lemma bz_zb z : bz (zb z) = z mod 256.
Proof.
  unfold bz, zb.
  destruct (Byte.of_N (Z.to_N (z mod 256))) as [b|] eqn:E.
  - apply Byte.to_of_N in E. lia.
  - apply Byte.of_N_None_iff in E. lia.
Qed.

Lemma zb_bz b : zb (bz b) = b.
Proof.
  unfold bz, zb. pose proof (Byte.to_N_bounded b) as Hb.
  rewrite Z.mod_small by lia. rewrite N2Z.id, Byte.of_to_N. reflexivity.
Qed.

Lemma bz_inj a b : bz a = bz b -> a = b.
Proof. intro H. rewrite <- (zb_bz a), <- (zb_bz b), H. reflexivity. Qed.

Lemma bz_zb_small z : 0 <= z < 256 -> bz (zb z) = z.
Proof. intro. rewrite bz_zb, Z.mod_small; lia. Qed.

Definition bytes := list byte.

(** Go string literal as bytes. *)
Definition str (s : string) : bytes := String.list_byte_of_string s.

Definition byte_eqb (a b : byte) : bool := Byte.eqb a b.
Lemma byte_eqb_spec a b : reflect (a = b) (byte_eqb a b).
Proof.
  unfold byte_eqb. destruct (Byte.eqb a b) eqn:E; constructor.
  - apply Byte.byte_dec_bl; exact E.
  - intro H. apply Byte.byte_dec_lb in H. congruence.
Qed.
Lemma byte_eqb_eq a b : byte_eqb a b = true <-> a = b.
Proof. destruct (byte_eqb_spec a b); split; congruence. Qed.
Lemma byte_eqb_refl a : byte_eqb a a = true.
Proof. apply byte_eqb_eq; reflexivity. Qed.

(** bytes.Equal / Go string equality. *)
Fixpoint bytes_eqb (a b : bytes) : bool :=
  match a, b with
  | [], [] => true
  | x :: a', y :: b' => byte_eqb x y && bytes_eqb a' b'
  | _, _ => false
  end.
Lemma bytes_eqb_eq a b : bytes_eqb a b = true <-> a = b.
Proof.
  revert b; induction a as [|x a IH]; destruct b as [|y b]; simpl; try (split; congruence).
  rewrite andb_true_iff, byte_eqb_eq, IH. split; intros H; [destruct H; congruence | inversion H; auto].
Qed.
Lemma bytes_eqb_refl a : bytes_eqb a a = true.
Proof. apply bytes_eqb_eq; reflexivity. Qed.
Lemma bytes_eqb_spec a b : reflect (a = b) (bytes_eqb a b).
Proof.
  destruct (bytes_eqb a b) eqn:E; constructor.
  - apply bytes_eqb_eq; exact E.
  - intro H. apply bytes_eqb_eq in H. congruence.
Qed.
Lemma bytes_eqb_neq a b : bytes_eqb a b = false <-> a <> b.
Proof. destruct (bytes_eqb_spec a b); split; congruence. Qed.
Lemma bytes_dec (a b : bytes) : {a = b} + {a <> b}.
Proof. destruct (bytes_eqb_spec a b); [left|right]; assumption. Qed.

(** Slice element assignment [s[i] = v] for an in-range [i]; identity otherwise (callers guard). *)
Fixpoint upd {A} (i : nat) (v : A) (l : list A) : list A :=
  match l, i with
  | [], _ => []
  | _ :: l', O => v :: l'
  | x :: l', S i' => x :: upd i' v l'
  end.

Section Upd.
  Context {A : Type}.
  Implicit Types (l : list A) (i j : nat) (v w : A).

  Lemma upd_length i v l : length (upd i v l) = length l.
  Proof. revert i; induction l as [|x l IH]; intros [|i]; simpl; auto. Qed.

  Lemma nth_error_upd_same i v l : (i < length l)%nat -> nth_error (upd i v l) i = Some v.
  Proof. revert i; induction l as [|x l IH]; intros [|i] H; simpl in *; try lia; auto. apply IH; lia. Qed.

  Lemma nth_error_upd_diff i j v l : i <> j -> nth_error (upd i v l) j = nth_error l j.
  Proof.
    revert i j; induction l as [|x l IH]; intros [|i] [|j] H; simpl in *; auto; try lia.
  Qed.

  Lemma nth_error_upd i j v l :
    nth_error (upd i v l) j = if (Nat.eqb i j && Nat.ltb i (length l))%bool then Some v else nth_error l j.
  Proof.
    destruct (Nat.eqb_spec i j) as [->|H]; simpl.
    - destruct (Nat.ltb_spec j (length l)) as [H|H].
      + apply nth_error_upd_same; exact H.
      + assert (E : forall (l0 : list A), (length l0 <= j)%nat -> nth_error l0 j = None)
          by (intros; apply nth_error_None; assumption).
        rewrite !E; auto. rewrite upd_length; exact H.
    - apply nth_error_upd_diff; exact H.
  Qed.

  Lemma upd_upd_same i v w l : upd i v (upd i w l) = upd i v l.
  Proof. revert i; induction l as [|x l IH]; intros [|i]; simpl; f_equal; auto. Qed.

  Lemma upd_comm i j v w l : i <> j -> upd i v (upd j w l) = upd j w (upd i v l).
  Proof. revert i j; induction l as [|x l IH]; intros [|i] [|j] H; simpl; f_equal; auto; lia. Qed.

  Lemma upd_id i v l : nth_error l i = Some v -> upd i v l = l.
  Proof.
    revert i; induction l as [|x l IH]; intros [|i] H; simpl in *; try discriminate; f_equal; auto; congruence.
  Qed.

  Lemma list_eq_nth (l1 l2 : list A) :
    (forall i, nth_error l1 i = nth_error l2 i) -> l1 = l2.
  Proof.
    revert l2; induction l1 as [|x l1 IH]; intros [|y l2] H; auto.
    - specialize (H 0%nat); discriminate.
    - specialize (H 0%nat); discriminate.
    - f_equal; [specialize (H 0%nat); simpl in H; congruence|].
      apply IH. intro i. exact (H (S i)).
  Qed.

  Lemma nth_error_map_seq (f : nat -> A) n i :
    (i < n)%nat -> nth_error (map f (seq 0 n)) i = Some (f i).
  Proof.
    intro H. rewrite nth_error_map.
    assert (nth_error (seq 0 n) i = Some i) as ->.
    { erewrite nth_error_nth' with (d := 0%nat) by (rewrite seq_length; exact H).
      rewrite seq_nth by exact H. reflexivity. }
    reflexivity.
  Qed.

  Lemma nth_error_Some_lt l i v : nth_error l i = Some v -> (i < length l)%nat.
  Proof. intro H. apply nth_error_Some. congruence. Qed.

  Lemma nth_error_repeat (n i : nat) v : (i < n)%nat -> nth_error (repeat v n) i = Some v.
  Proof. revert i; induction n as [|n IH]; intros [|i] H; simpl; try lia; auto. apply IH; lia. Qed.
End Upd.

(** Go slice index expression [s[i]] with an [int] index: panics out of range (also negative). *)
Definition idx {A} (l : list A) (i : Z) : outcome A :=
  if (0 <=? i) then match nth_error l (Z.to_nat i) with Some a => Ret a | None => Panic end else Panic.

(** Go slice element store [s[i] = v] with an [int] index. *)
Definition store {A} (l : list A) (i : Z) (v : A) : outcome (list A) :=
  if (0 <=? i) && (i <? Z.of_nat (length l)) then Ret (upd (Z.to_nat i) v l) else Panic.

(** Dereference of a possibly-nil pointer. *)
Definition deref {A} (o : option A) : outcome A := match o with Some a => Ret a | None => Panic end.

(** Go slice expression [s[a:b]]; model panics unless 0 <= a <= b <= len (capacity = length). *)
Definition slice (l : bytes) (a b : Z) : outcome bytes :=
  if (0 <=? a) && (a <=? b) && (b <=? Z.of_nat (length l))
  then Ret (firstn (Z.to_nat (b - a)) (skipn (Z.to_nat a) l)) else Panic.

Lemma idx_Ret {A} (l : list A) i a :
  idx l i = Ret a <-> 0 <= i /\ nth_error l (Z.to_nat i) = Some a.
Proof.
  unfold idx. destruct (Z.leb_spec 0 i) as [H|H].
  - destruct (nth_error l (Z.to_nat i)) as [x|] eqn:E; split; intros H0.
    + inversion H0; subst; auto.
    + destruct H0 as [_ H0]; congruence.
    + discriminate.
    + destruct H0; discriminate.
  - split; [discriminate|lia].
Qed.
Lemma idx_nat {A} (l : list A) (i : nat) :
  idx l (Z.of_nat i) = match nth_error l i with Some a => Ret a | None => Panic end.
Proof. unfold idx. destruct (Z.leb_spec 0 (Z.of_nat i)); [|lia]. rewrite Nat2Z.id. reflexivity. Qed.

Lemma store_nat {A} (l : list A) i v : (i < length l)%nat -> store l (Z.of_nat i) v = Ret (upd i v l).
Proof. intro Hi. unfold store. replace ((0 <=? Z.of_nat i) && (Z.of_nat i <? Z.of_nat (length l))) with true by lia. rewrite Nat2Z.id. reflexivity. Qed.

Lemma store_Ret {A} (l : list A) i v l' :
  store l i v = Ret l' <-> 0 <= i < Z.of_nat (length l) /\ l' = upd (Z.to_nat i) v l.
Proof.
  unfold store. destruct (Z.leb_spec 0 i); destruct (Z.ltb_spec i (Z.of_nat (length l))); simpl;
    split; intros H1; try discriminate; try lia; [inversion H1|destruct H1; subst]; auto.
Qed.

(** Association maps used for Go's [map[string]*T] (only lookup, insert, delete are used). *)
Section Map.
  Context {A : Type}.
  Definition gmap := list (bytes * A).
  Fixpoint mget (k : bytes) (m : gmap) : option A :=
    match m with
    | [] => None
    | (k', v) :: m' => if bytes_eqb k k' then Some v else mget k m'
    end.
  Definition mdel (k : bytes) (m : gmap) : gmap :=
    filter (fun kv => negb (bytes_eqb k (fst kv))) m.
  Definition mput (k : bytes) (v : A) (m : gmap) : gmap := (k, v) :: mdel k m.

  Lemma mget_del_same k m : mget k (mdel k m) = None.
  Proof.
    induction m as [|[k' v] m IH]; simpl; auto.
    destruct (bytes_eqb k k') eqn:E; simpl; auto. rewrite E; auto.
  Qed.
  Lemma mget_del_diff k k' m : k <> k' -> mget k (mdel k' m) = mget k m.
  Proof.
    intro H. induction m as [|[k2 v] m IH]; simpl; auto.
    destruct (bytes_eqb_spec k' k2) as [->|E]; simpl.
    - rewrite IH. destruct (bytes_eqb_spec k k2); [contradiction|reflexivity].
    - destruct (bytes_eqb k k2); auto.
  Qed.
  Lemma mget_put_same k v m : mget k (mput k v m) = Some v.
  Proof. simpl. rewrite bytes_eqb_refl. reflexivity. Qed.
  Lemma mget_put_diff k k' v m : k <> k' -> mget k (mput k' v m) = mget k m.
  Proof.
    intro H. simpl. destruct (bytes_eqb_spec k k'); [contradiction|]. apply mget_del_diff; exact H.
  Qed.
End Map.
Arguments gmap : clear implicits.
