(** KeygenNet.v -- n parties running key generation over an asynchronous network (small specification),
    and the proof that every call succeeds and all parties agree. *)
From Verif Require Import Base BigInt HashFrame Text Wire Messages PartyID Curve Schnorr Json Save Keygen Xor.
From Coq Require Import Permutation Sorted.

(** ** The network: what callers do.  Every party makes its calls in the documented order; messages are
    delivered in any order, any number of times, at any time after they were produced. *)
Record kworld := { w_p : nat -> kparty; w_out : nat -> nat -> option bytes }.
Inductive kevent :=
| KExec (r i : nat)            (* party i calls KeygenRound{r}Exec *)
| KDeliver (r i j : nat)       (* party i calls KeygenRound{r}Accept(from = j, base64 of what j produced) *)
| KChain (i : nat) (codes : bytes).   (* party i calls SaveChainCodes, with any text, at any time *)

Definition fupd {A} (f : nat -> A) (i : nat) (v : A) : nat -> A := fun k => if (k =? i)%nat then v else f k.

Section Net.
  Variable C : curve.
  Variable H : bytes -> bytes.
  Variable N : nat.                       (* number of parties *)
  Variable rnd : nat -> kg_rand.          (* random choices of party i *)

  Definition k_exec (r i : nat) (p : kparty) : outcome (res * kparty) :=
    match r with
    | 1%nat => kg_r1_exec C H (rnd i) p
    | 2%nat => kg_r2_exec p
    | 3%nat => kg_r3_exec C H p
    | _ => kg_r4_exec C H p
    end.

  Definition k_enabled (e : kevent) (w : kworld) : Prop :=
    match e with
    | KExec r i => (i < N)%nat /\ (1 <= r <= 4)%nat /\ w_out w r i = None /\
                   (r = 1%nat \/ exists m res, w_out w (r - 1) i = Some m /\
                      kg_finish (r - 1) (w_p w i) = Ret (res, w_p w i) /\ r_ok res = true)
    | KDeliver r i j => (i < N)%nat /\ (j < N)%nat /\ (1 <= r <= 3)%nat /\ w_out w r j <> None
    | KChain i _ => (i < N)%nat
    end.

  Definition k_run (e : kevent) (w : kworld) : outcome (res * kworld) :=
    match e with
    | KExec r i => let! (res, p) := k_exec r i (w_p w i) in
                   Ret (res, {| w_p := fupd (w_p w) i p;
                                w_out := fupd (w_out w) r (fupd (w_out w r) i (Some (r_data res))) |})
    | KDeliver r i j =>
        match w_out w r j with
        | None => Panic
        | Some m => let! (res, p) := kg_accept r (Z.of_nat j) (b64_enc m) (w_p w i) in
                    Ret (res, {| w_p := fupd (w_p w) i p; w_out := w_out w |})
        end
    | KChain i codes => let! (res, p) := save_chain_codes codes (w_p w i) in
                        Ret (res, {| w_p := fupd (w_p w) i p; w_out := w_out w |})
    end.

  Variable pids : list bytes.             (* the comma-separated ids, split *)
  Variable roots : nat -> bytes.          (* root private key (hex) of party i *)

  (** every party was created by a successful NewKeygenLocalParty call *)
  Definition k_init (w : kworld) : Prop :=
    (forall r i, w_out w r i = None) /\
    forall i, (i < N)%nat -> exists res, kg_new (Z.of_nat i) (Z.of_nat N) pids (roots i) = Ret (res, Some (w_p w i)) /\ r_ok res = true.

  Inductive k_reach : kworld -> Prop :=
  | kr_init w : k_init w -> k_reach w
  | kr_step w e res w' : k_reach w -> k_enabled e w -> k_run e w = Ret (res, w') -> k_reach w'.
End Net.

(** ** Generic loop facts *)
Definition fold_upd {A} (f : nat -> A) (js : list nat) (l : list A) : list A := fold_left (fun l j => upd j (f j) l) js l.
Lemma fold_upd_length {A} (f : nat -> A) js l : length (fold_upd f js l) = length l.
Proof. unfold fold_upd. revert l; induction js as [|j js IH]; intro l; cbn; auto. rewrite IH. apply upd_length. Qed.
Lemma fold_upd_nth {A} (f : nat -> A) js l k : nth_error (fold_upd f js l) k =
  if existsb (Nat.eqb k) js && (k <? length l)%nat then Some (f k) else nth_error l k.
Proof.
  revert l; induction js as [|j js IH]; intro l; [reflexivity|]. cbn [fold_upd fold_left existsb].
  unfold fold_upd in IH. rewrite IH, upd_length, nth_error_upd.
  destruct (Nat.eqb_spec k j) as [->|E].
  - rewrite Nat.eqb_refl. cbn [orb andb]. destruct (existsb _ _), (j <? length l)%nat; reflexivity.
  - replace (j =? k)%nat with false by (symmetry; apply Nat.eqb_neq; congruence). cbn [orb andb]. reflexivity.
Qed.
Lemma existsb_seq k n : existsb (Nat.eqb k) (seq 0 n) = (k <? n)%nat.
Proof.
  destruct (Nat.ltb_spec k n).
  - apply existsb_exists. exists k. split; [apply in_seq; lia|apply Nat.eqb_refl].
  - destruct (existsb _ _) eqn:E; [|reflexivity]. apply existsb_exists in E. destruct E as (x & Hx & Q).
    apply in_seq in Hx. apply Nat.eqb_eq in Q. lia.
Qed.
Lemma fold_upd_all {A} (f : nat -> A) l : fold_upd f (seq 0 (length l)) l = map f (seq 0 (length l)).
Proof.
  apply list_eq_nth. intro k. rewrite fold_upd_nth, existsb_seq.
  destruct (Nat.ltb_spec k (length l)).
  - rewrite nth_error_map_seq by auto. reflexivity.
  - cbn. rewrite (proj2 (nth_error_None _ _)) by lia. symmetry. apply nth_error_None. rewrite map_length, seq_length. lia.
Qed.

(** ** One party's rounds, given good inputs *)
Section Loops.
  Variable C : curve.
  Variable H : bytes -> bytes.

  Lemma r2_loop_ok (v : nat -> bytes) js p :
    (forall j, In j js -> parse_wire (nth j (kp_r1 p) []) = Some (CKg1 (v j))) ->
    kg_r2_loop js p = Ret (None, k_set_V (fold_upd v js (kp_V p)) p).
  Proof.
    revert p; induction js as [|j js IH]; intros p Hp.
    - cbn. destruct p; reflexivity.
    - cbn [kg_r2_loop]. rewrite Hp by (left; auto). rewrite IH; [reflexivity|].
      intros k Hk. apply Hp. right; auto.
  Qed.

  Variables (X A : nat -> point) (srid u : nat -> bytes) (m : nat -> kg2).
  Definition mk_payload (ssid : bytes) (j : nat) : payload :=
    {| pl_A := A j; pl_ssid := ssid; pl_srid := srid j; pl_u := u j |}.
  Definition r3_state (i : nat) (js : list nat) (p : kparty) : kparty :=
    let ks := filter (fun j => negb (j =? i)%nat) js in
    k_set_srid (fold_left xor (map srid ks) (kp_srid p))
      (k_set_save (set_pub (fold_upd (fun j => Some (X j)) ks (sv_pub (kp_save p))) (kp_save p))
        (k_set_payload (fold_upd (fun j => Some (mk_payload (kp_ssid p) j)) ks (kp_payload p)) p)).

  Lemma r3_loop_ok js p :
    (forall j, In j js -> j <> kp_i p ->
       parse_wire (nth j (kp_r2 p) []) = Some (CKg2 (m j)) /\
       new_point C (of_be (k2_ax (m j))) (of_be (k2_ay (m j))) = Some (A j) /\
       new_point C (of_be (k2_xx (m j))) (of_be (k2_xy (m j))) = Some (X j) /\
       k2_ssid (m j) = kp_ssid p /\ k2_srid (m j) = srid j /\ k2_u (m j) = u j /\
       nth j (kp_V p) [] = commit H (kp_ssid p) j (srid j) (X j) (A j) (u j)) ->
    kg_r3_loop C H js p = Ret (None, r3_state (kp_i p) js p).
  Proof.
    revert p; induction js as [|j js IH]; intros p Hp.
    - cbn. destruct p as [? ? []]; reflexivity.
    - cbn [kg_r3_loop]. unfold r3_state. cbn [filter]. destruct (Nat.eqb_spec j (kp_i p)) as [E|E].
      + cbn [negb]. apply IH. intros k Hk. apply Hp. right; auto.
      + cbn [negb]. destruct (Hp j (or_introl eq_refl) E) as (P1 & P2 & P3 & P4 & P5 & P6 & P7).
        unfold kg_r3_one. rewrite P1, P2, P3.
        cbn [pl_A pl_ssid pl_srid pl_u kp_ssid k_set_save k_set_payload kp_V kp_save kp_payload kp_srid].
        rewrite P4, bytes_eqb_refl, P5, P6, P7, bytes_eqb_refl. cbn [obind].
        rewrite IH.
        * reflexivity.
        * intros k Hk Hki. apply (Hp k); [right; auto|exact Hki].
  Qed.

  Lemma r4_loop_ok (ch : nat -> Z) (z : nat -> bytes) js p :
    (forall j, In j js -> j <> kp_i p ->
       parse_wire (nth j (kp_r3 p) []) = Some (CKg3 (z j) [] []) /\
       nth j (sv_pub (kp_save p)) None = Some (X j) /\
       nth j (kp_payload p) None = Some (mk_payload (kp_ssid p) j) /\
       kg_challenge C H (kp_ssid p) (kp_srid p) j (X j) (A j) = Ret (ch j) /\
       sch_verify C (A j) (X j) (ch j) (of_be (z j)) = Ret true) ->
    kg_r4_loop C H js p = Ret None.
  Proof.
    induction js as [|j js IH]; intros Hp; [reflexivity|].
    cbn [kg_r4_loop]. destruct (Nat.eqb_spec j (kp_i p)) as [E|E].
    - apply IH. intros k Hk. apply Hp. right; auto.
    - destruct (Hp j (or_introl eq_refl) E) as (P1 & P2 & P3 & P4 & P5).
      unfold kg_r4_one. rewrite P1, P2, P3. cbn [deref obind mk_payload pl_A]. rewrite P4. cbn [obind]. rewrite P5. cbn [obind].
      apply IH. intros k Hk. apply Hp. right; auto.
  Qed.
End Loops.

Section Sum.
  Variable C : curve.
  Hypothesis L : curve_laws C.
  Lemma sum_points_gmul j (a : Z) (xs : list Z) :
    sum_points C j (gmul C a) (map (fun x => Some (gmul C x)) xs) = Ret (inr (gmul C (a + fold_right Z.add 0 xs))).
  Proof.
    revert j a; induction xs as [|x xs IH]; intros j a; cbn [map sum_points fold_right].
    - rewrite Z.add_0_r. reflexivity.
    - rewrite pt_add_gmul by auto. rewrite IH. do 3 f_equal. lia.
  Qed.
  Lemma sum_pub_gmul (xs : list Z) : xs <> [] ->
    sum_pub C (map (fun x => Some (gmul C x)) xs) = Ret (inr (gmul C (fold_right Z.add 0 xs))).
  Proof. destruct xs as [|x xs]; [congruence|]. intros _. cbn [map sum_pub fold_right]. apply sum_points_gmul. Qed.
End Sum.

(** first_missing: Finish reports ok iff all the other slots are non-empty *)
Lemma first_missing_none skip j l : first_missing skip j l = None <->
  forall k m, nth_error l k = Some m -> (match skip with Some i => (j + k)%nat <> i | None => True end) -> m <> [].
Proof.
  revert j; induction l as [|x l IH]; intro j; cbn [first_missing].
  - split; [|reflexivity]. intros _ [|k] m Hm; discriminate.
  - assert (Tail : (forall k m, nth_error l k = Some m -> (match skip with Some i => (S j + k)%nat <> i | None => True end) -> m <> [])
       <-> (forall k m, nth_error (x :: l) (S k) = Some m -> (match skip with Some i => (j + S k)%nat <> i | None => True end) -> m <> [])).
    { split; intros T k m Hm Hs; apply (T k m Hm); destruct skip; auto; lia. }
    destruct (match skip with Some i => (i =? j)%nat | None => false end) eqn:E.
    + rewrite IH, Tail. split; intros T k m Hm Hs.
      * destruct k; [|eapply T; eauto]. destruct skip; [|discriminate]. apply Nat.eqb_eq in E. lia.
      * eapply (T (S k)); eauto.
    + assert (E0 : match skip with Some i => (j + 0)%nat <> i | None => True end).
      { destruct skip; auto. apply Nat.eqb_neq in E. lia. }
      destruct x as [|b x].
      * split; [discriminate|]. intro T. exfalso. apply (T 0%nat [] eq_refl E0). reflexivity.
      * rewrite IH, Tail. split; intros T k m Hm Hs.
        -- destruct k; [inversion Hm; discriminate|eapply T; eauto].
        -- eapply (T (S k)); eauto.
Qed.
