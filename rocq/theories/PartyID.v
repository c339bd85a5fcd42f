(** PartyID.v -- tss/party_id.go, tss/params.go (committee membership), tss/peers.go. *)
From Verif Require Import Base BigInt Text.
From Coq Require Import Permutation Sorted.

(** tss/party_id.go 22-25: PartyID (id, moniker, key bytes, index) *)
Record party_id := { pid_id : bytes; pid_moniker : bytes; pid_key : bytes; pid_index : Z }.

(** tss/party_id.go 34-36 *)
Definition key_int (p : party_id) : Z := of_be (pid_key p).

(** tss/party_id.go 42-51 NewPartyID; a nil key panics in key.Bytes() *)
Definition new_party_id (id moniker : bytes) (key : option Z) : outcome party_id :=
  match key with
  | None => Panic
  | Some k => Ret {| pid_id := id; pid_moniker := moniker; pid_key := to_be k; pid_index := -1 |}
  end.

(** tss/party_id.go 28-30; the key slice of a constructed PartyID is never nil *)
Definition pid_valid (p : party_id) : bool := 0 <=? pid_index p.

(** sort.Sort with Less(a,b) = KeyInt(a) <= KeyInt(b) (party_id.go 129-131).  The Go library sort is an
    unspecified comparison sort; it is modelled by insertion sort, and [sort_unique] shows that for distinct
    keys every correct sort gives the same list. *)
Fixpoint insert_pid (p : party_id) (l : list party_id) : list party_id :=
  match l with
  | [] => [p]
  | q :: r => if key_int p <=? key_int q then p :: l else q :: insert_pid p r
  end.
Fixpoint sort_pids (l : list party_id) : list party_id :=
  match l with [] => [] | p :: r => insert_pid p (sort_pids r) end.

Definition set_index (p : party_id) (i : Z) : party_id :=
  {| pid_id := pid_id p; pid_moniker := pid_moniker p; pid_key := pid_key p; pid_index := i |}.
Fixpoint assign_index (i : Z) (l : list party_id) : list party_id :=
  match l with [] => [] | p :: r => set_index p i :: assign_index (i + 1) r end.

(** tss/party_id.go 61-76 SortPartyIDs(ids, startAt...) *)
Definition sort_party_ids (start : Z) (l : list party_id) : list party_id := assign_index start (sort_pids l).

(** tss/party_id.go 103-109 *)
Definition keys (l : list party_id) : list Z := map key_int l.
(** tss/party_id.go 115-122 *)
Definition find_by_key (l : list party_id) (k : Z) : option party_id := find (fun p => key_int p =? k) l.
(** tss/party_id.go 124-133 *)
Definition exclude (l : list party_id) (e : party_id) : list party_id :=
  filter (fun p => negb (key_int p =? key_int e)) l.
(** tss/params.go 149-169 IsOldCommittee / IsNewCommittee *)
Definition in_committee (self : party_id) (l : list party_id) : bool :=
  existsb (fun p => key_int self =? key_int p) l.

(** ** Facts *)
Definition asc (l : list party_id) : Prop := StronglySorted (fun a b => key_int a <= key_int b) l.

Lemma insert_perm p l : Permutation (insert_pid p l) (p :: l).
Proof.
  induction l as [|q l IH]; [reflexivity|]. simpl. destruct (key_int p <=? key_int q); [reflexivity|].
  rewrite IH. apply perm_swap.
Qed.
Lemma sort_perm l : Permutation (sort_pids l) l.
Proof. induction l as [|p l IH]; [reflexivity|]. simpl. rewrite insert_perm, IH. reflexivity. Qed.

Lemma insert_asc p l : asc l -> asc (insert_pid p l).
Proof.
  induction 1 as [|q l Hs IH Hq]; simpl; [repeat constructor|].
  destruct (Z.leb_spec (key_int p) (key_int q)).
  - constructor; [constructor; assumption|]. constructor; [assumption|].
    eapply Forall_impl; [|exact Hq]. intros; simpl in *; lia.
  - constructor; [exact IH|].
    rewrite insert_perm. constructor; [lia|exact Hq].
Qed.
Lemma sort_asc l : asc (sort_pids l).
Proof. induction l as [|p l IH]; simpl; [constructor|]. apply insert_asc; exact IH. Qed.

Lemma assign_index_keys s l : keys (assign_index s l) = keys l.
Proof. revert s; induction l as [|p l IH]; intro s; simpl; [reflexivity|]. f_equal. apply IH. Qed.
Lemma assign_index_nth s l i p : nth_error (assign_index s l) i = Some p ->
  pid_index p = s + Z.of_nat i /\ exists q, nth_error l i = Some q /\ p = set_index q (s + Z.of_nat i).
Proof.
  revert s i; induction l as [|q l IH]; intros s [|i] H; simpl in H; try discriminate.
  - inversion H; subst. split; [simpl; lia|]. exists q. split; [reflexivity|]. f_equal; lia.
  - apply IH in H. destruct H as [H1 (q' & H2 & H3)]. split; [rewrite H1; lia|].
    exists q'. split; [exact H2|]. rewrite H3. f_equal. lia.
Qed.
Lemma assign_index_length s l : length (assign_index s l) = length l.
Proof. revert s; induction l as [|q l IH]; intro s; simpl; auto. Qed.

(** Sorted lists of integers that are permutations of each other are equal. *)
Lemma Zsorted_unique (l1 l2 : list Z) :
  StronglySorted Z.le l1 -> StronglySorted Z.le l2 -> Permutation l1 l2 -> l1 = l2.
Proof.
  revert l2; induction l1 as [|x l1 IH]; intros l2 H1 H2 HP.
  - apply Permutation_nil in HP. congruence.
  - destruct l2 as [|y l2]; [apply Permutation_sym, Permutation_nil in HP; discriminate|].
    apply StronglySorted_inv in H1. apply StronglySorted_inv in H2. destruct H1 as [S1 F1], H2 as [S2 F2].
    assert (x = y).
    { assert (x <= y).
      { assert (I : In y (x :: l1)) by (eapply Permutation_in; [symmetry; exact HP|left; reflexivity]).
        destruct I as [->|I]; [lia|]. rewrite Forall_forall in F1. auto. }
      assert (y <= x).
      { assert (I : In x (y :: l2)) by (eapply Permutation_in; [exact HP|left; reflexivity]).
        destruct I as [->|I]; [lia|]. rewrite Forall_forall in F2. auto. }
      lia. }
    subst y. f_equal. apply IH; auto. eapply Permutation_cons_inv; exact HP.
Qed.

Lemma asc_keys l : asc l -> StronglySorted Z.le (keys l).
Proof.
  induction 1 as [|p l Hs IH Hf]; simpl; constructor; auto.
  apply Forall_map. exact Hf.
Qed.

Lemma keys_perm l1 l2 : Permutation l1 l2 -> Permutation (keys l1) (keys l2).
Proof. apply Permutation_map. Qed.

(** any two ascending permutations have the same keys *)
Lemma sorted_keys_unique l1 l2 : asc l1 -> asc l2 -> Permutation l1 l2 -> keys l1 = keys l2.
Proof. intros H1 H2 HP. apply Zsorted_unique; try (apply asc_keys; assumption). apply keys_perm; exact HP. Qed.

(** distinct keys: any two ascending permutations are the same list *)
Lemma sort_unique l1 l2 : asc l1 -> asc l2 -> Permutation l1 l2 -> NoDup (keys l1) -> l1 = l2.
Proof.
  intros H1 H2 HP ND. pose proof (sorted_keys_unique _ _ H1 H2 HP) as HK.
  apply list_eq_nth. intro i.
  assert (HL : length l1 = length l2) by (apply Permutation_length; exact HP).
  destruct (nth_error l1 i) as [a|] eqn:Ea.
  - destruct (nth_error l2 i) as [b|] eqn:Eb.
    + assert (K : key_int a = key_int b).
      { assert (A : nth_error (keys l1) i = Some (key_int a)) by (unfold keys; rewrite nth_error_map, Ea; reflexivity).
        assert (B : nth_error (keys l2) i = Some (key_int b)) by (unfold keys; rewrite nth_error_map, Eb; reflexivity).
        rewrite HK in A. congruence. }
      assert (I : In b l1) by (eapply Permutation_in; [symmetry; exact HP|eapply nth_error_In; exact Eb]).
      apply In_nth_error in I. destruct I as [j Ej].
      assert (i = j).
      { eapply NoDup_nth_error in ND; [exact ND| |].
        - unfold keys. rewrite map_length. eapply nth_error_Some_lt; exact Ea.
        - unfold keys. rewrite !nth_error_map, Ea, Ej. simpl. congruence. }
      subst j. congruence.
    + apply nth_error_None in Eb. apply nth_error_Some_lt in Ea. lia.
  - destruct (nth_error l2 i) as [b|] eqn:Eb; [|reflexivity].
    apply nth_error_None in Ea. apply nth_error_Some_lt in Eb. lia.
Qed.

Lemma sort_party_ids_order_irrelevant s l1 l2 :
  Permutation l1 l2 -> NoDup (keys l1) -> sort_party_ids s l1 = sort_party_ids s l2.
Proof.
  intros HP ND. unfold sort_party_ids. f_equal.
  apply sort_unique; try apply sort_asc.
  - rewrite !sort_perm. exact HP.
  - eapply Permutation_NoDup; [|exact ND]. apply keys_perm. symmetry. apply sort_perm.
Qed.

Lemma sort_party_ids_keys_perm s l1 l2 :
  Permutation l1 l2 -> keys (sort_party_ids s l1) = keys (sort_party_ids s l2).
Proof.
  intros HP. unfold sort_party_ids. rewrite !assign_index_keys.
  apply sorted_keys_unique; try apply sort_asc. rewrite !sort_perm. exact HP.
Qed.

(** keys after sorting, as a function on integers *)
Fixpoint insert_z (x : Z) (l : list Z) : list Z :=
  match l with [] => [x] | y :: r => if x <=? y then x :: l else y :: insert_z x r end.
Fixpoint sort_z (l : list Z) : list Z := match l with [] => [] | x :: r => insert_z x (sort_z r) end.
Lemma keys_insert p l : keys (insert_pid p l) = insert_z (key_int p) (keys l).
Proof. induction l as [|q l IH]; simpl; [reflexivity|]. destruct (key_int p <=? key_int q); simpl; [reflexivity|]. f_equal. exact IH. Qed.
Lemma keys_sort l : keys (sort_pids l) = sort_z (keys l).
Proof. induction l as [|p l IH]; simpl; [reflexivity|]. rewrite keys_insert, IH. reflexivity. Qed.
Lemma keys_sort_party_ids s l : keys (sort_party_ids s l) = sort_z (keys l).
Proof. unfold sort_party_ids. rewrite assign_index_keys. apply keys_sort. Qed.

Lemma insert_z_perm x l : Permutation (insert_z x l) (x :: l).
Proof.
  induction l as [|q l IH]; [reflexivity|]. simpl. destruct (x <=? q); [reflexivity|].
  rewrite IH. apply perm_swap.
Qed.
Lemma sort_z_perm l : Permutation (sort_z l) l.
Proof. induction l as [|p l IH]; [reflexivity|]. simpl. rewrite insert_z_perm, IH. reflexivity. Qed.
Lemma insert_z_sorted p l : StronglySorted Z.le l -> StronglySorted Z.le (insert_z p l).
Proof.
  induction 1 as [|q l Hs IH Hq]; simpl; [repeat constructor|].
  destruct (Z.leb_spec p q).
  - constructor; [constructor; assumption|]. constructor; [assumption|].
    eapply Forall_impl; [|exact Hq]. intros; simpl in *; lia.
  - constructor; [exact IH|]. rewrite insert_z_perm. constructor; [lia|exact Hq].
Qed.
Lemma sort_z_sorted l : StronglySorted Z.le (sort_z l).
Proof. induction l as [|p l IH]; simpl; [constructor|]. apply insert_z_sorted; exact IH. Qed.
Lemma sort_z_unique l1 l2 : Permutation l1 l2 -> sort_z l1 = sort_z l2.
Proof. intro H. apply Zsorted_unique; try apply sort_z_sorted. rewrite !sort_z_perm. exact H. Qed.
Lemma sort_z_length l : length (sort_z l) = length l.
Proof. apply Permutation_length, sort_z_perm. Qed.

(** find / exclude *)
Lemma find_by_key_spec l k p : find_by_key l k = Some p -> In p l /\ key_int p = k.
Proof. intro H. apply find_some in H. destruct H; split; auto. lia. Qed.
Lemma find_by_key_none l k : find_by_key l k = None <-> ~ In k (keys l).
Proof.
  unfold find_by_key, keys. split.
  - intros H I. apply in_map_iff in I. destruct I as (p & E & I).
    eapply find_none in H; [|exact I]. simpl in H. lia.
  - intro H. destruct (find _ l) as [p|] eqn:E; [|reflexivity].
    apply find_some in E. destruct E as [I E]. exfalso. apply H. apply in_map_iff. exists p. split; [lia|exact I].
Qed.
Lemma exclude_spec l e p : In p (exclude l e) <-> In p l /\ key_int p <> key_int e.
Proof. unfold exclude. rewrite filter_In. destruct (Z.eqb_spec (key_int p) (key_int e)); simpl; intuition congruence. Qed.
Lemma in_committee_spec self l : in_committee self l = true <-> In (key_int self) (keys l).
Proof.
  unfold in_committee, keys. rewrite existsb_exists, in_map_iff. split; intros (p & H1 & H2).
  - exists p. split; [lia|assumption].
  - exists p. split; [assumption|lia].
Qed.
