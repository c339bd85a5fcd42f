(** KeygenWorld.v -- the invariant of a network of honest key-generation parties. *)
From Verif Require Import Base BigInt HashFrame Text Wire Messages PartyID Curve Schnorr Json Save Keygen Xor KeygenNet KeygenHonest.
From Coq Require Import Permutation Sorted.

Lemma fupd_same {A} (f : nat -> A) i v : fupd f i v i = v.
Proof. unfold fupd. rewrite Nat.eqb_refl. reflexivity. Qed.
Lemma fupd_diff {A} (f : nat -> A) i v k : k <> i -> fupd f i v k = f k.
Proof. unfold fupd. intro E. apply Nat.eqb_neq in E. rewrite E. reflexivity. Qed.

Lemma first_missing_skip_none i l : first_missing (Some i) 0 l = None ->
  forall j, (j < length l)%nat -> j <> i -> nth_error l j <> Some [].
Proof.
  intros F j Hj Hji E. apply first_missing_none with (k := j) (m := []) in F; auto.
Qed.

Section World.
  Variable C : curve.
  Hypothesis L : curve_laws C.
  Variable H : bytes -> bytes.
  Hypothesis Hlen : forall b, length (H b) = 32%nat.
  Variable N : nat.
  Variable rnd : nat -> kg_rand.
  Hypothesis Hrnd : forall i, (i < N)%nat -> length (kr_u (rnd i)) = 32%nat /\ length (kr_srid (rnd i)) = 32%nat.
  Variable ids : list party_id.
  Hypothesis Hids : length ids = N.
  Variable x : nat -> Z.
  Notation hm := (hm C H N rnd x).
  Notation st := (st C H N rnd ids x).
  Notation sv := (sv C N ids x).

  Record kinv (w : kworld) (pc : nat -> nat) (ch : nat -> option (list (option Z))) (s : nat -> nat -> list bytes) : Prop := {
    ki_pc : forall i, (i < N)%nat -> (pc i <= 4)%nat;
    ki_st : forall i, (i < N)%nat -> w_p w i = st (pc i) i (ch i) (s 1%nat i) (s 2%nat i) (s 3%nat i);
    ki_len : forall r i, (i < N)%nat -> (1 <= r <= 3)%nat -> length (s r i) = N;
    ki_slot : forall r i j, (i < N)%nat -> (j < N)%nat -> (1 <= r <= 3)%nat ->
       nth_error (s r i) j = Some [] \/ (nth_error (s r i) j = Some (hm r j) /\ (r <= pc j)%nat);
    ki_own : forall r i, (i < N)%nat -> (1 <= r <= 3)%nat -> (r <= pc i)%nat -> nth_error (s r i) i = Some (hm r i);
    ki_full : forall r i j, (i < N)%nat -> (j < N)%nat -> (1 <= r <= 3)%nat -> (r < pc i)%nat -> nth_error (s r i) j = Some (hm r j);
    ki_out : forall r i, (i < N)%nat -> (1 <= r <= 3)%nat -> w_out w r i = if (r <=? pc i)%nat then Some (hm r i) else None;
    ki_out4 : forall i, (i < N)%nat -> if (4 <=? pc i)%nat then exists c, w_out w 4%nat i = Some (save_enc (sv 4 i c)) else w_out w 4%nat i = None
  }.

  Lemma k_slots_st r k i ch r1 r2 r3 : k_slots r (st k i ch r1 r2 r3) = match r with 1%nat => r1 | 2%nat => r2 | _ => r3 end.
  Proof. destruct r as [|[|[|?]]]; reflexivity. Qed.
  Lemma k_set_slots_st r l k i ch r1 r2 r3 : (1 <= r <= 3)%nat -> k_set_slots r l (st k i ch r1 r2 r3) =
    match r with 1%nat => st k i ch l r2 r3 | 2%nat => st k i ch r1 l r3 | _ => st k i ch r1 r2 l end.
  Proof. intro Hr. destruct r as [|[|[|[|?]]]]; try lia; reflexivity. Qed.

  Lemma slot_pick (s : nat -> nat -> list bytes) r i : (1 <= r <= 3)%nat ->
    match r with 1%nat => s 1%nat i | 2%nat => s 2%nat i | _ => s 3%nat i end = s r i.
  Proof. intro Hr. destruct r as [|[|[|[|?]]]]; try lia; reflexivity. Qed.

  (** the effect of advancing party i to round r *)
  Definition adv (pc : nat -> nat) i r := fupd pc i r.
  Definition set_own (s : nat -> nat -> list bytes) r i v : nat -> nat -> list bytes :=
    fupd s r (fupd (s r) i v).

  Lemma set_own_same s r i v : set_own s r i v r i = v.
  Proof. unfold set_own. rewrite fupd_same, fupd_same. reflexivity. Qed.
  Lemma set_own_diff s r i v r' i' : ~ (r' = r /\ i' = i) -> set_own s r i v r' i' = s r' i'.
  Proof.
    intro E. unfold set_own. destruct (Nat.eq_dec r' r) as [->|Er]; [|rewrite fupd_diff by auto; reflexivity].
    rewrite fupd_same. rewrite fupd_diff by (intro; apply E; auto). reflexivity.
  Qed.

  (** writing a genuine message into a slot keeps the invariant *)
  Lemma inv_deliver w pc ch s r i j : kinv w pc ch s -> (i < N)%nat -> (j < N)%nat -> (1 <= r <= 3)%nat -> (r <= pc j)%nat ->
    kinv {| w_p := fupd (w_p w) i (k_set_slots r (upd j (hm r j) (s r i)) (w_p w i)); w_out := w_out w |}
         pc ch (set_own s r i (upd j (hm r j) (s r i))).
  Proof.
    intros I Hi Hj Hr Hpc. set (l := upd j (hm r j) (s r i)).
    assert (LEN : length l = N) by (unfold l; rewrite upd_length; apply (ki_len _ _ _ _ I); auto).
    constructor; cbn [w_p w_out].
    - apply (ki_pc _ _ _ _ I).
    - intros k Hk. destruct (Nat.eq_dec k i) as [->|E].
      + rewrite fupd_same, (ki_st _ _ _ _ I i Hi), k_set_slots_st by auto.
        destruct r as [|[|[|[|?]]]]; try lia; rewrite set_own_same, ?set_own_diff by lia; reflexivity.
      + rewrite fupd_diff by auto. rewrite (ki_st _ _ _ _ I k Hk), !set_own_diff by lia. reflexivity.
    - intros r' k Hk Hr'. destruct (Nat.eq_dec r' r) as [->|]; [destruct (Nat.eq_dec k i) as [->|]|].
      + rewrite set_own_same. exact LEN.
      + rewrite set_own_diff by lia. apply (ki_len _ _ _ _ I); auto.
      + rewrite set_own_diff by lia. apply (ki_len _ _ _ _ I); auto.
    - intros r' k q Hk Hq Hr'. destruct (Nat.eq_dec r' r) as [->|]; [destruct (Nat.eq_dec k i) as [->|]|].
      + rewrite set_own_same. unfold l. destruct (Nat.eq_dec j q) as [->|E].
        * right. rewrite nth_error_upd_same; [auto|]. rewrite (ki_len _ _ _ _ I); auto.
        * rewrite nth_error_upd_diff by auto. apply (ki_slot _ _ _ _ I); auto.
      + rewrite set_own_diff by lia. apply (ki_slot _ _ _ _ I); auto.
      + rewrite set_own_diff by lia. apply (ki_slot _ _ _ _ I); auto.
    - intros r' k Hk Hr' Hp. destruct (Nat.eq_dec r' r) as [->|]; [destruct (Nat.eq_dec k i) as [->|]|].
      + rewrite set_own_same. unfold l. destruct (Nat.eq_dec j i) as [->|E].
        * apply nth_error_upd_same. rewrite (ki_len _ _ _ _ I); auto.
        * rewrite nth_error_upd_diff by auto. apply (ki_own _ _ _ _ I); auto.
      + rewrite set_own_diff by lia. apply (ki_own _ _ _ _ I); auto.
      + rewrite set_own_diff by lia. apply (ki_own _ _ _ _ I); auto.
    - intros r' k q Hk Hq Hr' Hp. destruct (Nat.eq_dec r' r) as [->|]; [destruct (Nat.eq_dec k i) as [->|]|].
      + rewrite set_own_same. unfold l. destruct (Nat.eq_dec j q) as [->|E].
        * apply nth_error_upd_same. rewrite (ki_len _ _ _ _ I); auto.
        * rewrite nth_error_upd_diff by auto. apply (ki_full _ _ _ _ I); auto.
      + rewrite set_own_diff by lia. apply (ki_full _ _ _ _ I); auto.
      + rewrite set_own_diff by lia. apply (ki_full _ _ _ _ I); auto.
    - apply (ki_out _ _ _ _ I).
    - apply (ki_out4 _ _ _ _ I).
  Qed.

  (** executing round r = pc i + 1 <= 3 *)
  Lemma inv_exec w pc ch s r i : kinv w pc ch s -> (i < N)%nat -> (1 <= r <= 3)%nat -> r = S (pc i) ->
    (forall q, (q < r)%nat -> (1 <= q)%nat -> filled C H N rnd x q (s q i)) ->
    kinv {| w_p := fupd (w_p w) i (match r with
                     | 1%nat => st 1 i (ch i) (upd i (hm r i) (s 1%nat i)) (s 2%nat i) (s 3%nat i)
                     | 2%nat => st 2 i (ch i) (s 1%nat i) (upd i (hm r i) (s 2%nat i)) (s 3%nat i)
                     | _ => st 3 i (ch i) (s 1%nat i) (s 2%nat i) (upd i (hm r i) (s 3%nat i))
                     end);
            w_out := fupd (w_out w) r (fupd (w_out w r) i (Some (hm r i))) |}
         (fupd pc i r) ch (set_own s r i (upd i (hm r i) (s r i))).
  Proof.
    intros I Hi Hr Epc Hfill. set (l := upd i (hm r i) (s r i)).
    assert (LEN : length l = N) by (unfold l; rewrite upd_length; apply (ki_len _ _ _ _ I); auto).
    assert (PC : forall j, (pc j <= fupd pc i r j)%nat).
    { intro j. destruct (Nat.eq_dec j i) as [->|E]; [rewrite fupd_same; lia|rewrite fupd_diff by auto; lia]. }
    constructor; cbn [w_p w_out].
    - intros k Hk. destruct (Nat.eq_dec k i) as [->|E]; [rewrite fupd_same; lia|rewrite fupd_diff by auto; apply (ki_pc _ _ _ _ I); auto].
    - intros k Hk. destruct (Nat.eq_dec k i) as [->|E].
      + rewrite !fupd_same. destruct r as [|[|[|[|?]]]]; try lia; rewrite set_own_same, !set_own_diff by lia; reflexivity.
      + rewrite !fupd_diff by auto. rewrite (ki_st _ _ _ _ I k Hk), !set_own_diff by lia. reflexivity.
    - intros r' k Hk Hr'. destruct (Nat.eq_dec r' r) as [->|]; [destruct (Nat.eq_dec k i) as [->|]|].
      + rewrite set_own_same. exact LEN.
      + rewrite set_own_diff by lia. apply (ki_len _ _ _ _ I); auto.
      + rewrite set_own_diff by lia. apply (ki_len _ _ _ _ I); auto.
    - assert (OLD : forall r' k q, (k < N)%nat -> (q < N)%nat -> (1 <= r' <= 3)%nat ->
         nth_error (s r' k) q = Some [] \/ (nth_error (s r' k) q = Some (hm r' q) /\ (r' <= fupd pc i r q)%nat)).
      { intros r' k q Hk Hq Hr'. destruct (ki_slot _ _ _ _ I r' k q Hk Hq Hr') as [E|[E P]]; [auto|]. right. split; auto. pose proof (PC q). lia. }
      intros r' k q Hk Hq Hr'. destruct (Nat.eq_dec r' r) as [->|]; [destruct (Nat.eq_dec k i) as [->|]|].
      + rewrite set_own_same. unfold l. destruct (Nat.eq_dec i q) as [<-|E].
        * right. rewrite nth_error_upd_same by (rewrite (ki_len _ _ _ _ I); auto). rewrite fupd_same. auto.
        * rewrite nth_error_upd_diff by auto. apply OLD; auto.
      + rewrite set_own_diff by lia. apply OLD; auto.
      + rewrite set_own_diff by lia. apply OLD; auto.
    - intros r' k Hk Hr' Hp. destruct (Nat.eq_dec k i) as [->|Ek].
      + rewrite fupd_same in Hp. destruct (Nat.eq_dec r' r) as [->|Er].
        * rewrite set_own_same. apply nth_error_upd_same. rewrite (ki_len _ _ _ _ I); auto.
        * rewrite set_own_diff by lia. apply (ki_own _ _ _ _ I); auto; lia.
      + rewrite fupd_diff in Hp by auto. rewrite set_own_diff by lia. apply (ki_own _ _ _ _ I); auto.
    - intros r' k q Hk Hq Hr' Hp. destruct (Nat.eq_dec k i) as [->|Ek].
      + rewrite fupd_same in Hp. rewrite set_own_diff by lia. apply Hfill; lia.
      + rewrite fupd_diff in Hp by auto. rewrite set_own_diff by lia. apply (ki_full _ _ _ _ I); auto.
    - intros r' k Hk Hr'. destruct (Nat.eq_dec k i) as [->|Ek].
      + rewrite fupd_same. destruct (Nat.eq_dec r' r) as [->|Er].
        * rewrite !fupd_same. rewrite Nat.leb_refl. reflexivity.
        * rewrite fupd_diff by auto. rewrite (ki_out _ _ _ _ I) by auto.
          destruct (Nat.leb_spec r' (pc i)), (Nat.leb_spec r' r); auto; lia.
      + rewrite (fupd_diff pc) by auto. rewrite <- (ki_out _ _ _ _ I r' k Hk Hr').
        destruct (Nat.eq_dec r' r) as [->|Er]; [rewrite fupd_same, fupd_diff by auto; reflexivity|rewrite fupd_diff by auto; reflexivity].
    - intros k Hk. pose proof (ki_out4 _ _ _ _ I k Hk) as O4. rewrite (fupd_diff (w_out w)) by lia.
      destruct (Nat.eq_dec k i) as [->|Ek].
      + rewrite fupd_same. destruct (Nat.leb_spec 4 (pc i)); [lia|]. replace (4 <=? r)%nat with false by (symmetry; apply Nat.leb_gt; lia). exact O4.
      + rewrite fupd_diff by auto. exact O4.
  Qed.

  Lemma inv_exec4 w pc ch s i : kinv w pc ch s -> (i < N)%nat -> pc i = 3%nat ->
    (forall q, (1 <= q <= 3)%nat -> filled C H N rnd x q (s q i)) ->
    kinv {| w_p := fupd (w_p w) i (st 4 i (ch i) (s 1%nat i) (s 2%nat i) (s 3%nat i));
            w_out := fupd (w_out w) 4%nat (fupd (w_out w 4%nat) i (Some (save_enc (sv 4 i (ch i))))) |}
         (fupd pc i 4%nat) ch s.
  Proof.
    intros I Hi Epc Hfill.
    assert (PC : forall j, (pc j <= fupd pc i 4 j)%nat).
    { intro j. destruct (Nat.eq_dec j i) as [->|E]; [rewrite fupd_same; lia|rewrite fupd_diff by auto; lia]. }
    constructor; cbn [w_p w_out].
    - intros k Hk. destruct (Nat.eq_dec k i) as [->|E]; [rewrite fupd_same; lia|rewrite fupd_diff by auto; apply (ki_pc _ _ _ _ I); auto].
    - intros k Hk. destruct (Nat.eq_dec k i) as [->|E]; [rewrite !fupd_same; reflexivity|].
      rewrite !fupd_diff by auto. apply (ki_st _ _ _ _ I k Hk).
    - apply (ki_len _ _ _ _ I).
    - intros r' k q Hk Hq Hr'. destruct (ki_slot _ _ _ _ I r' k q Hk Hq Hr') as [E|[E P]]; [auto|]. right. split; auto. pose proof (PC q). lia.
    - intros r' k Hk Hr' Hp. destruct (Nat.eq_dec k i) as [->|Ek].
      + apply (ki_own _ _ _ _ I); auto; lia.
      + rewrite fupd_diff in Hp by auto. apply (ki_own _ _ _ _ I); auto.
    - intros r' k q Hk Hq Hr' Hp. destruct (Nat.eq_dec k i) as [->|Ek].
      + apply Hfill; lia.
      + rewrite fupd_diff in Hp by auto. apply (ki_full _ _ _ _ I); auto.
    - intros r' k Hk Hr'. rewrite fupd_diff by lia. rewrite (ki_out _ _ _ _ I r' k Hk Hr').
      destruct (Nat.eq_dec k i) as [->|Ek]; [rewrite fupd_same|rewrite fupd_diff by auto; reflexivity].
      destruct (Nat.leb_spec r' (pc i)), (Nat.leb_spec r' 4); auto; lia.
    - intros k Hk. pose proof (ki_out4 _ _ _ _ I k Hk) as O4. rewrite (fupd_same (w_out w)).
      destruct (Nat.eq_dec k i) as [->|Ek].
      + rewrite !fupd_same. cbn [Nat.leb]. exists (ch i). reflexivity.
      + rewrite !fupd_diff by auto. exact O4.
  Qed.

  Lemma inv_chain w pc ch s i c : kinv w pc ch s -> (i < N)%nat ->
    kinv {| w_p := fupd (w_p w) i (k_set_save (set_chain c (kp_save (w_p w i))) (w_p w i)); w_out := w_out w |} pc (fupd ch i c) s.
  Proof.
    intros I Hi. constructor; cbn [w_p w_out]; try apply I.
    intros k Hk. destruct (Nat.eq_dec k i) as [->|E].
    - rewrite !fupd_same, (ki_st _ _ _ _ I i Hi). reflexivity.
    - rewrite !fupd_diff by auto. apply (ki_st _ _ _ _ I k Hk).
  Qed.

  (** the slots that Finish has seen complete hold the genuine messages *)
  Lemma finish_filled w pc ch s r i res p' : kinv w pc ch s -> (i < N)%nat -> (1 <= r <= 3)%nat -> (r <= pc i)%nat ->
    kg_finish r (w_p w i) = Ret (res, p') -> r_ok res = true -> filled C H N rnd x r (s r i).
  Proof.
    intros I Hi Hr Hp F Ok. unfold kg_finish in F. rewrite (ki_st _ _ _ _ I i Hi) in F. rewrite k_slots_st in F.
    rewrite (slot_pick s r i Hr) in F. cbn [KeygenHonest.st kp_i] in F.
    destruct (first_missing (Some i) 0 (s r i)) eqn:E.
    - inversion F; subst res. discriminate.
    - split; [apply (ki_len _ _ _ _ I); auto|]. intros j Hj. destruct (Nat.eq_dec j i) as [->|Eji].
      + apply (ki_own _ _ _ _ I); auto.
      + destruct (ki_slot _ _ _ _ I r i j Hi Hj Hr) as [Z|[Z _]]; [|exact Z].
        exfalso. apply (first_missing_skip_none i (s r i) E j); auto. rewrite (ki_len _ _ _ _ I); auto.
  Qed.

  Lemma filled_filled_but r i l : filled C H N rnd x r l -> filled_but C H N rnd x r i l.
  Proof. intros [A B]. split; auto. Qed.

  Lemma parse_hm r j : (1 <= r <= 3)%nat -> (j < N)%nat -> exists c, parse_wire (hm r j) = Some c /\ kg_type_ok r c = true.
  Proof.
    intros Hr Hj. destruct r as [|[|[|[|?]]]]; try lia; eexists; split.
    - eapply parse_hm1; eauto. - reflexivity.
    - eapply parse_hm2; eauto. - reflexivity.
    - eapply parse_hm3; eauto. - reflexivity.
  Qed.

  (** executing round S (pc i) once the earlier rounds' slots are filled *)
  Lemma exec_step w pc ch s r i : kinv w pc ch s -> (i < N)%nat -> (1 <= r <= 4)%nat -> r = S (pc i) ->
    (forall q, (q < r)%nat -> (1 <= q)%nat -> filled C H N rnd x q (s q i)) ->
    exists res w' s', k_run C H rnd (KExec r i) w = Ret (res, w') /\ kinv w' (fupd pc i r) ch s' /\ r_ok res = true.
  Proof.
    intros I Hi Hr PCr FILL. cbn [k_run].
    rewrite (ki_st _ _ _ _ I i Hi). unfold k_exec.
    destruct (Nat.eq_dec r 4) as [->|E4].
    + replace (pc i) with 3%nat by lia. rewrite exec4; auto.
      2:{ apply filled_filled_but, FILL; lia. }
      cbn [obind]. do 3 eexists. split; [reflexivity|]. split; [|reflexivity].
      apply (inv_exec4 w pc ch s i); auto; try lia. intros q Hq. apply FILL; lia.
    + destruct r as [|[|[|[|r']]]]; try lia.
      * replace (pc i) with 0%nat by lia. rewrite exec1; auto. 2:{ apply (ki_len _ _ _ _ I); auto. }
        cbn [obind]. do 3 eexists. split; [reflexivity|]. split; [|reflexivity].
        apply (inv_exec w pc ch s 1 i); auto.
      * replace (pc i) with 1%nat by lia. rewrite exec2; auto.
        2:{ apply (ki_len _ _ _ _ I); auto. }
        cbn [obind]. do 3 eexists. split; [reflexivity|]. split; [|reflexivity].
        apply (inv_exec w pc ch s 2 i); auto.
      * replace (pc i) with 2%nat by lia. rewrite exec3; auto.
        2:{ apply filled_filled_but, FILL; lia. } 2:{ apply (ki_len _ _ _ _ I); auto. }
        cbn [obind]. do 3 eexists. split; [reflexivity|]. split; [|reflexivity].
        apply (inv_exec w pc ch s 3 i); auto.
  Qed.

  Lemma deliver_step w pc ch s r i j : kinv w pc ch s -> (i < N)%nat -> (j < N)%nat -> (1 <= r <= 3)%nat -> (r <= pc j)%nat ->
    exists res w', k_run C H rnd (KDeliver r i j) w = Ret (res, w') /\ kinv w' pc ch (set_own s r i (upd j (hm r j) (s r i))) /\ r_ok res = true.
  Proof.
    intros I Hi Hj Hr Hp. cbn [k_run]. rewrite (ki_out _ _ _ _ I) by auto.
    destruct (Nat.leb_spec r (pc j)) as [_|]; [|lia].
    unfold kg_accept. rewrite b64_roundtrip.
    assert (KS : k_slots r (w_p w i) = s r i) by (rewrite (ki_st _ _ _ _ I i Hi), k_slots_st; apply slot_pick; auto).
    rewrite KS.
    rewrite store_nat by (rewrite (ki_len _ _ _ _ I); auto). cbn [obind].
    destruct (parse_hm r j Hr Hj) as (c & P1 & P2). rewrite P1, P2. cbn [obind].
    do 2 eexists. split; [reflexivity|]. split; [|reflexivity]. apply (inv_deliver w pc ch s r i j); auto.
  Qed.

  (** what an enabled Exec event means for the invariant *)
  Lemma enabled_exec w pc ch s r i : kinv w pc ch s -> k_enabled N (KExec r i) w ->
    (i < N)%nat /\ (1 <= r <= 4)%nat /\ r = S (pc i) /\
    (forall q, (q < r)%nat -> (1 <= q)%nat -> filled C H N rnd x q (s q i)).
  Proof.
    intros I (Hi & Hr & Hn & Hprev).
    assert (PCr : r = S (pc i)).
    { pose proof (ki_pc _ _ _ _ I i Hi) as P4.
      assert (pc i < r)%nat.
      { destruct (Nat.eq_dec r 4) as [->|E4].
        - pose proof (ki_out4 _ _ _ _ I i Hi) as O. destruct (Nat.leb_spec 4 (pc i)); [|lia]. destruct O as [c O]. congruence.
        - rewrite (ki_out _ _ _ _ I) in Hn by (auto; lia). destruct (Nat.leb_spec r (pc i)); [discriminate|lia]. }
      destruct Hprev as [->|(m & res & Ho & _)]; [lia|].
      destruct (Nat.eq_dec r 1) as [->|E1]; [lia|].
      rewrite (ki_out _ _ _ _ I) in Ho by (auto; lia). destruct (Nat.leb_spec (r - 1) (pc i)); [lia|discriminate]. }
    repeat (split; [tauto|]).
    intros q Hq Hq1. destruct (Nat.eq_dec q (r - 1)) as [->|Eq].
    - destruct Hprev as [->|(m & res & Ho & F & Ok)]; [lia|]. eapply finish_filled; eauto; lia.
    - split; [apply (ki_len _ _ _ _ I); auto; lia|]. intros j Hj. apply (ki_full _ _ _ _ I); auto; lia.
  Qed.

  (** one enabled event: it returns, with success for round calls and deliveries, and keeps the invariant *)
  Lemma inv_step w pc ch s e : kinv w pc ch s -> k_enabled N e w ->
    exists res w' pc' ch' s', k_run C H rnd e w = Ret (res, w') /\ kinv w' pc' ch' s' /\ (match e with KExec _ _ | KDeliver _ _ _ => r_ok res = true | KChain _ _ => True end).
  Proof.
    intros I En. destruct e as [r i|r i j|i codes].
    - destruct (enabled_exec w pc ch s r i I En) as (Hi & Hr & PCr & FILL).
      destruct (exec_step w pc ch s r i I Hi Hr PCr FILL) as (res & w' & s' & E & I' & Ok). eauto 10.
    - destruct En as (Hi & Hj & Hr & Ho). rewrite (ki_out _ _ _ _ I) in * by auto.
      destruct (Nat.leb_spec r (pc j)) as [Hp|]; [|congruence].
      destruct (deliver_step w pc ch s r i j I Hi Hj Hr Hp) as (res & w' & E & I' & Ok). eauto 10.
    - cbn [k_enabled k_run] in *. unfold save_chain_codes.
      assert (NOP : kinv {| w_p := fupd (w_p w) i (w_p w i); w_out := w_out w |} pc ch s).
      { constructor; cbn [w_p w_out]; try apply I. intros k Hk. destruct (Nat.eq_dec k i) as [->|E]; [rewrite fupd_same|rewrite fupd_diff by auto]; apply I; auto. }
      destruct (_ =? _)%nat; [destruct (parse_chain _ _)|]; cbn [obind]; do 5 eexists; (split; [reflexivity|]); (split; [|auto]); try exact NOP.
      apply (inv_chain w pc ch s i); auto.
  Qed.

  (** ** Progress: steps that are round calls and deliveries only *)
  Inductive k_steps : kworld -> kworld -> Prop :=
  | ks_refl w : k_steps w w
  | ks_cons w e res w' w'' : (forall i c, e <> KChain i c) -> k_enabled N e w -> k_run C H rnd e w = Ret (res, w') -> k_steps w' w'' -> k_steps w w''.
  Lemma k_steps_trans w1 w2 w3 : k_steps w1 w2 -> k_steps w2 w3 -> k_steps w1 w3.
  Proof. induction 1; auto. intro S. econstructor; eauto. Qed.

  Lemma deliver_all w pc ch s r i k : kinv w pc ch s -> (i < N)%nat -> (1 <= r <= 3)%nat ->
    (forall j, (j < N)%nat -> (r <= pc j)%nat) -> (k <= N)%nat ->
    exists w' s', k_steps w w' /\ kinv w' pc ch s' /\ forall j, (j < k)%nat -> nth_error (s' r i) j = Some (hm r j).
  Proof.
    intros I Hi Hr Hall. induction k as [|k IH]; intro Hk.
    - exists w, s. split; [constructor|]. split; [auto|]. intros; lia.
    - destruct IH as (w1 & s1 & St & I1 & F1); [lia|].
      destruct (deliver_step w1 pc ch s1 r i k I1 Hi ltac:(lia) Hr ltac:(apply Hall; lia)) as (res & w2 & E & I2 & Ok).
      exists w2, (set_own s1 r i (upd k (hm r k) (s1 r i))). split.
      + eapply k_steps_trans; [exact St|]. econstructor; [| |exact E|constructor]; [intros; discriminate|].
        cbn [k_enabled]. repeat (split; [lia|]). rewrite (ki_out _ _ _ _ I1) by (auto; lia).
        specialize (Hall k). destruct (Nat.leb_spec r (pc k)); [discriminate|lia].
      + split; [exact I2|]. intros j Hj. rewrite set_own_same. destruct (Nat.eq_dec k j) as [->|E'].
        * apply nth_error_upd_same. rewrite (ki_len _ _ _ _ I1); auto.
        * rewrite nth_error_upd_diff by auto. apply F1. lia.
  Qed.

  (** a party that is not ahead of anyone can take its next step *)
  Lemma advance_min w pc ch s i : kinv w pc ch s -> (i < N)%nat -> (pc i < 4)%nat ->
    (forall j, (j < N)%nat -> (pc i <= pc j)%nat) ->
    exists w' s', k_steps w w' /\ kinv w' (fupd pc i (S (pc i))) ch s'.
  Proof.
    intros I Hi H4 Hmin.
    destruct (Nat.eq_dec (pc i) 0) as [E0|E0].
    - destruct (exec_step w pc ch s 1 i I Hi ltac:(lia) ltac:(lia) ltac:(intros; lia)) as (res & w' & s' & E & I' & Ok).
      exists w', s'. rewrite E0. split; [|exact I']. econstructor; [| |exact E|constructor]; [intros; discriminate|].
      split; [exact Hi|]. split; [lia|]. split; [|left; reflexivity].
      rewrite (ki_out _ _ _ _ I) by (auto; lia). destruct (Nat.leb_spec 1 (pc i)); [lia|reflexivity].
    - destruct (deliver_all w pc ch s (pc i) i N I Hi ltac:(lia) Hmin ltac:(lia)) as (w1 & s1 & St & I1 & F1).
      assert (FILL : filled C H N rnd x (pc i) (s1 (pc i) i)) by (split; [apply (ki_len _ _ _ _ I1); auto; lia|exact F1]).
      destruct (exec_step w1 pc ch s1 (S (pc i)) i I1 Hi ltac:(lia) eq_refl) as (res & w' & s' & E & I' & Ok).
      { intros q Hq Hq1. destruct (Nat.eq_dec q (pc i)) as [->|Eq]; [exact FILL|].
        split; [apply (ki_len _ _ _ _ I1); auto; lia|]. intros j Hj. apply (ki_full _ _ _ _ I1); auto; lia. }
      exists w', s'. split; [|exact I']. eapply k_steps_trans; [exact St|]. econstructor; [| |exact E|constructor]; [intros; discriminate|].
      split; [exact Hi|]. split; [lia|]. split.
      + destruct (Nat.eq_dec (pc i) 3) as [E3|E3].
        * rewrite E3. pose proof (ki_out4 _ _ _ _ I1 i Hi) as O. rewrite E3 in O. cbn in O. exact O.
        * rewrite (ki_out _ _ _ _ I1) by (auto; lia). destruct (Nat.leb_spec (S (pc i)) (pc i)); [lia|reflexivity].
      + right. replace (S (pc i) - 1)%nat with (pc i) by lia. exists (hm (pc i) i), ok0.
        rewrite (ki_out _ _ _ _ I1) by (auto; lia). rewrite Nat.leb_refl. split; [reflexivity|]. split; [|reflexivity].
        unfold kg_finish.
        assert (KS : k_slots (pc i) (w_p w1 i) = s1 (pc i) i) by (rewrite (ki_st _ _ _ _ I1 i Hi), k_slots_st; apply slot_pick; lia).
        rewrite KS. replace (first_missing (Some (kp_i (w_p w1 i))) 0 (s1 (pc i) i)) with (@None nat); [reflexivity|].
        symmetry. apply first_missing_none. intros k m Hm _. destruct FILL as [Fl Ff].
        rewrite Ff in Hm by (apply nth_error_Some_lt in Hm; lia). inversion Hm. apply hm_nonempty.
  Qed.

  Definition togo (pc : nat -> nat) : nat := fold_right Nat.add 0%nat (map (fun i => (4 - pc i)%nat) (seq 0 N)).
  Lemma sum_fupd (f : nat -> nat) i v l : NoDup l -> In i l ->
    (fold_right Nat.add 0 (map (fupd f i v) l) + f i = fold_right Nat.add 0 (map f l) + v)%nat.
  Proof.
    induction 1 as [|a l Ha Hl IH]; [intros []|]. intros [->|Hin]; cbn [map fold_right].
    - rewrite fupd_same. assert (E : map (fupd f i v) l = map f l).
      { apply map_ext_in. intros b Hb. apply fupd_diff. intros ->. contradiction. }
      rewrite E. lia.
    - specialize (IH Hin). rewrite (fupd_diff f i v a) by (intros ->; contradiction). lia.
  Qed.
  Lemma togo_dec pc i : (i < N)%nat -> (pc i < 4)%nat -> (togo (fupd pc i (S (pc i))) < togo pc)%nat.
  Proof.
    intros Hi H4. unfold togo.
    rewrite (map_ext_in _ (fupd (fun i => (4 - pc i)%nat) i (3 - pc i)%nat)).
    - pose proof (sum_fupd (fun i => (4 - pc i)%nat) i (3 - pc i)%nat (seq 0 N) (seq_NoDup _ _) ltac:(apply in_seq; lia)) as S. cbn beta in S. lia.
    - intros a _. unfold fupd. destruct (a =? i)%nat; lia.
  Qed.
  Lemma min_exists (pc : nat -> nat) k : (0 < k)%nat -> exists i, (i < k)%nat /\ forall j, (j < k)%nat -> (pc i <= pc j)%nat.
  Proof.
    induction k as [|k IH]; [lia|]. intros _. destruct k as [|k].
    - exists 0%nat. split; [lia|]. intros j Hj. replace j with 0%nat by lia. lia.
    - destruct IH as (i & Hi & Hm); [lia|]. destruct (Nat.le_gt_cases (pc i) (pc (S k))).
      + exists i. split; [lia|]. intros j Hj. destruct (Nat.eq_dec j (S k)) as [->|]; [lia|apply Hm; lia].
      + exists (S k). split; [lia|]. intros j Hj. destruct (Nat.eq_dec j (S k)) as [->|]; [lia|]. specialize (Hm j ltac:(lia)). lia.
  Qed.

  Lemma inv_complete w pc ch s : kinv w pc ch s -> (0 < N)%nat ->
    exists w', k_steps w w' /\ forall i, (i < N)%nat -> w_out w' 4%nat i <> None.
  Proof.
    intros I HN. remember (togo pc) as t eqn:Et. revert w pc s I Et.
    induction t as [t IH] using (well_founded_induction lt_wf). intros w pc s I Et.
    destruct (min_exists pc N HN) as (i & Hi & Hmin).
    destruct (Nat.lt_ge_cases (pc i) 4) as [H4|H4].
    - destruct (advance_min w pc ch s i I Hi H4 Hmin) as (w1 & s1 & St & I1).
      destruct (IH (togo (fupd pc i (S (pc i)))) ltac:(subst t; apply togo_dec; auto) w1 _ s1 I1 eq_refl) as (w' & St' & Hd).
      exists w'. split; [eapply k_steps_trans; eauto|exact Hd].
    - exists w. split; [constructor|]. intros j Hj. pose proof (ki_out4 _ _ _ _ I j Hj) as O. specialize (Hmin j Hj).
      destruct (Nat.leb_spec 4 (pc j)); [|lia]. destruct O as [c O]. congruence.
  Qed.
End World.

(** ** From NewKeygenLocalParty to the invariant *)
Definition root_scalar (roots : nat -> bytes) (i : nat) : Z := match hex_dec (roots i) with Some kb => of_be kb | None => 0 end.

Lemma build_ids_length i k pids l : build_ids i k pids = Ret l -> length l = k.
Proof.
  revert i pids l; induction k as [|k IH]; intros i pids l E; cbn in E; [inversion E; reflexivity|].
  destruct pids as [|p pids]; [discriminate|]. destruct (new_party_id _ _ _); cbn in E; [|discriminate].
  destruct (build_ids (i + 1) k pids) eqn:B; cbn in E; [|discriminate]. inversion E. cbn. f_equal. eapply IH; eauto.
Qed.
Lemma make_ids_length n pids l : make_ids (Z.of_nat n) pids = Ret l -> length l = n.
Proof.
  unfold make_ids. destruct (Z.ltb_spec (Z.of_nat n) 0); [lia|]. rewrite Nat2Z.id.
  destruct (build_ids 0 n pids) eqn:B; cbn; [|discriminate]. intro E; inversion E. unfold sort_party_ids.
  rewrite assign_index_length. rewrite (Permutation_length (sort_perm _)). eapply build_ids_length; eauto.
Qed.
Lemma make_ids_index n pids l i p : make_ids n pids = Ret l -> nth_error l i = Some p -> pid_index p = Z.of_nat i.
Proof.
  unfold make_ids. destruct (n <? 0); [discriminate|]. destruct (build_ids _ _ _); cbn; [|discriminate].
  intros E Hn; inversion E; subst. unfold sort_party_ids in Hn. apply assign_index_nth in Hn. destruct Hn as [-> _]. lia.
Qed.

Lemma kg_new_inv i n pids root res p : (i < n)%nat ->
  kg_new (Z.of_nat i) (Z.of_nat n) pids root = Ret (res, Some p) ->
  exists ids kb, make_ids (Z.of_nat n) pids = Ret ids /\ hex_dec root = Some kb /\ res = ok0 /\
    p = {| kp_i := i; kp_ids := ids; kp_save := set_priv (Some (of_be kb)) (new_save n);
           kp_tau := None; kp_A := None; kp_srid := []; kp_u := [];
           kp_payload := repeat None n; kp_ssid := []; kp_V := repeat [] n;
           kp_r1 := repeat [] n; kp_r2 := repeat [] n; kp_r3 := repeat [] n; kp_number := 0 |}.
Proof.
  intros Hi E. unfold kg_new in E. destruct (make_ids _ pids) as [ids|] eqn:M; cbn in E; [|discriminate].
  rewrite idx_nat in E. destruct (nth_error ids i) as [self|] eqn:Hn; cbn in E; [|discriminate].
  destruct (hex_dec root) as [kb|] eqn:Hx; [|discriminate].
  exists ids, kb. repeat (split; [auto; fail|]). rewrite (make_ids_index _ _ _ _ _ M Hn) in E. rewrite !Nat2Z.id in E.
  inversion E. auto.
Qed.

Section Reach.
  Variable C : curve.
  Hypothesis L : curve_laws C.
  Variable H : bytes -> bytes.
  Hypothesis Hlen : forall b, length (H b) = 32%nat.
  Variable N : nat.
  Variable rnd : nat -> kg_rand.
  Hypothesis Hrnd : forall i, (i < N)%nat -> length (kr_u (rnd i)) = 32%nat /\ length (kr_srid (rnd i)) = 32%nat.
  Variable pids : list bytes.
  Variable roots : nat -> bytes.
  Notation x := (root_scalar roots).

  Lemma init_inv w : k_init N pids roots w -> (0 < N)%nat ->
    exists ids, make_ids (Z.of_nat N) pids = Ret ids /\ length ids = N /\
      kinv C H N rnd ids x w (fun _ => 0%nat) (fun _ => None) (fun _ _ => repeat [] N).
  Proof.
    intros [Ho Hp] HN. destruct (Hp 0%nat HN) as (res0 & E0 & _).
    destruct (kg_new_inv _ _ _ _ _ _ HN E0) as (ids & kb & M & _).
    exists ids. split; [exact M|]. split; [eapply make_ids_length; eauto|].
    constructor; cbn.
    - intros; lia.
    - intros i Hi. destruct (Hp i Hi) as (res & E & _). destruct (kg_new_inv _ _ _ _ _ _ Hi E) as (ids' & kb' & M' & Hx & _ & ->).
      rewrite M in M'; inversion M'; subst ids'. unfold st, sv, root_scalar. cbn [Nat.leb]. rewrite Hx. reflexivity.
    - intros. apply repeat_length.
    - intros. left. apply nth_error_repeat; auto.
    - intros; lia.
    - intros; lia.
    - intros r i Hi Hr. rewrite Ho. destruct r; [lia|reflexivity].
    - intros. apply Ho.
  Qed.

  Lemma reach_inv w : (0 < N)%nat -> k_reach C H N rnd pids roots w ->
    exists ids, make_ids (Z.of_nat N) pids = Ret ids /\ length ids = N /\
      exists pc ch s, kinv C H N rnd ids x w pc ch s.
  Proof.
    intros HN R. induction R as [w I|w e res w' R IH En Run].
    - destruct (init_inv w I HN) as (ids & M & Hl & I'). exists ids. eauto 8.
    - destruct IH as (ids & M & Hl & pc & ch & s & I). exists ids. split; [auto|]. split; [auto|].
      destruct (inv_step C L H Hlen N rnd Hrnd ids Hl x w pc ch s e I En) as (res' & w'' & pc' & ch' & s' & E & I' & _).
      rewrite Run in E. inversion E; subst. eauto.
  Qed.
End Reach.
