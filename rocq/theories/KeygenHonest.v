(** KeygenHonest.v -- every schedule of an honest key generation succeeds and agrees. *)
From Verif Require Import Base BigInt HashFrame Text Wire Messages PartyID Curve Schnorr Json Save Keygen Xor KeygenNet.
From Coq Require Import Permutation Sorted.

Lemma tiny_len (b : bytes) k : length b = k -> (k < 1000)%nat -> tiny b.
Proof. unfold tiny. intros -> Hk. assert (Z.of_nat k < 1000) by lia. assert (1000 < 2 ^ 40) by reflexivity. lia. Qed.

Lemma to_be_tiny z : 0 <= z < 2 ^ 256 -> tiny (to_be z).
Proof.
  intro Hz. unfold tiny. pose proof (to_be_length z 32) as T.
  assert ((length (to_be z) <= 32)%nat) by (apply T; change (256 ^ Z.of_nat 32) with (2 ^ 256); lia).
  assert (32 < 2 ^ 40) by reflexivity. lia.
Qed.

Lemma filter_seq_perm i k : (i < k)%nat ->
  Permutation (i :: filter (fun j => negb (j =? i)%nat) (seq 0 k)) (seq 0 k).
Proof.
  intro Hi. apply NoDup_Permutation.
  - constructor; [|apply NoDup_filter, seq_NoDup]. rewrite filter_In. intros [_ E]. rewrite Nat.eqb_refl in E. discriminate.
  - apply seq_NoDup.
  - intro j. cbn [In]. rewrite filter_In, !in_seq. destruct (Nat.eqb_spec j i); cbn; split; intros; try lia; intuition (try lia; try congruence).
Qed.

Lemma existsb_filter k i l : existsb (Nat.eqb k) (filter (fun j => negb (j =? i)%nat) l) = existsb (Nat.eqb k) l && negb (k =? i)%nat.
Proof.
  induction l as [|a l IH]; [reflexivity|]. cbn [filter existsb]. destruct (Nat.eqb_spec a i) as [->|E]; cbn [negb existsb]; rewrite IH.
  - destruct (Nat.eqb_spec k i); cbn; rewrite ?andb_false_r; reflexivity.
  - destruct (Nat.eqb_spec k a) as [->|E']; cbn; [|reflexivity]. replace (a =? i)%nat with false by (symmetry; apply Nat.eqb_neq; auto).
    reflexivity.
Qed.

Section Honest.
  Variable C : curve.
  Hypothesis L : curve_laws C.
  Variable H : bytes -> bytes.
  Hypothesis Hlen : forall b, length (H b) = 32%nat.
  Variable N : nat.
  Variable rnd : nat -> kg_rand.
  Hypothesis Hrnd : forall i, (i < N)%nat -> length (kr_u (rnd i)) = 32%nat /\ length (kr_srid (rnd i)) = 32%nat.
  Variable ids : list party_id.
  Hypothesis Hids : length ids = N.
  Variable x : nat -> Z.
  Notation n := (c_n C).
  Notation gmul := (gmul C).

  Definition hX i := gmul (x i).
  Definition htau i := kr_tau (rnd i).
  Definition hA i := gmul (htau i).
  Definition hsrid i := kr_srid (rnd i).
  Definition hu i := kr_u (rnd i).
  Definition hv i := commit H kg_ssid i (hsrid i) (hX i) (hA i) (hu i).
  Definition hm2c i : kg2 := {| k2_ssid := kg_ssid; k2_pi := 0; k2_srid := hsrid i;
     k2_xx := to_be (px (hX i)); k2_xy := to_be (py (hX i)); k2_ax := to_be (px (hA i)); k2_ay := to_be (py (hA i));
     k2_u := hu i; k2_pn := []; k2_ps := []; k2_pt := [] |}.
  (** the common srid *)
  Definition hS : bytes := xors (map hsrid (seq 0 N)).
  Definition hch i : Z :=
    match kg_challenge C H kg_ssid hS i (hX i) (hA i) with Ret c => c | Panic => 0 end.
  Definition hz i : Z := sch_prove n (htau i) (hch i) (x i).
  Definition hm (r i : nat) : bytes :=
    match r with
    | 1%nat => wire_bytes (CKg1 (hv i))
    | 2%nat => wire_bytes (CKg2 (hm2c i))
    | _ => wire_bytes (CKg3 (to_be (hz i)) [] [])
    end.
  Definition hY : point := gmul (fold_right Z.add 0 (map x (seq 0 N))).

  Definition hpl i j : option payload := if (j =? i)%nat then None else Some (mk_payload hA hsrid hu kg_ssid j).
  Definition sv (k i : nat) (ch : option (list (option Z))) : save :=
    {| sv_priv := Some (x i);
       sv_share := if (1 <=? k)%nat then Some (nth i (keys ids) 0) else None;
       sv_chain := ch;
       sv_ks := if (1 <=? k)%nat then map Some (keys ids) else repeat None N;
       sv_pub := if (3 <=? k)%nat then map (fun j => Some (hX j)) (seq 0 N)
                 else if (1 <=? k)%nat then upd i (Some (hX i)) (repeat None N) else repeat None N;
       sv_ed := if (4 <=? k)%nat then Some hY else None;
       sv_pks := repeat None N; sv_peds := repeat None N |}.
  Definition st (k i : nat) (ch : option (list (option Z))) (r1 r2 r3 : list bytes) : kparty :=
    {| kp_i := i; kp_ids := ids; kp_save := sv k i ch;
       kp_tau := if (1 <=? k)%nat then Some (htau i) else None;
       kp_A := if (1 <=? k)%nat then Some (hA i) else None;
       kp_srid := if (3 <=? k)%nat then hS else if (1 <=? k)%nat then hsrid i else [];
       kp_u := if (1 <=? k)%nat then hu i else [];
       kp_payload := if (3 <=? k)%nat then map (hpl i) (seq 0 N) else repeat None N;
       kp_ssid := if (1 <=? k)%nat then kg_ssid else [];
       kp_V := if (2 <=? k)%nat then map hv (seq 0 N) else repeat [] N;
       kp_r1 := r1; kp_r2 := r2; kp_r3 := r3; kp_number := Z.of_nat k |}.

  Lemma hm_nonempty r i : hm r i <> [].
  Proof. unfold hm. destruct r as [|[|[|r]]]; apply wire_bytes_nonempty. Qed.

  Lemma coord_range k : 0 <= px (gmul k) < 2 ^ 256 /\ 0 <= py (gmul k) < 2 ^ 256.
  Proof. apply (cl_coord C L). apply gmul_canon; auto. Qed.

  Lemma commit_len ssid j sr X A u : length (commit H ssid j sr X A u) = 32%nat.
  Proof. unfold commit, commit_parts, sha_parts. apply Hlen. Qed.

  Lemma parse_hm1 j : parse_wire (hm 1 j) = Some (CKg1 (hv j)).
  Proof. apply parse_wire_bytes. apply ok_kg1. apply (tiny_len _ 32); [apply commit_len|lia]. Qed.
  Lemma parse_hm2 j : (j < N)%nat -> parse_wire (hm 2 j) = Some (CKg2 (hm2c j)).
  Proof.
    intro Hj. apply parse_wire_bytes.
    pose proof (coord_range (x j)) as [X1 X2]. pose proof (coord_range (htau j)) as [A1 A2].
    destruct (Hrnd j Hj) as [U S].
    apply ok_kg2; cbn [hm2c k2_ssid k2_pi k2_srid k2_xx k2_xy k2_ax k2_ay k2_u k2_pn k2_ps k2_pt]; auto using tiny_nil, to_be_tiny.
    all: first [apply (tiny_len _ 15); [reflexivity|lia] | apply (tiny_len _ 32); [first [exact S|exact U]|lia]].
  Qed.
  Lemma hz_range j : 0 <= hz j < n.
  Proof. unfold hz, sch_prove. pose proof (n_gt1 C L). apply Z.mod_pos_bound; lia. Qed.
  Lemma parse_hm3 j : parse_wire (hm 3 j) = Some (CKg3 (to_be (hz j)) [] []).
  Proof.
    apply parse_wire_bytes. apply ok_kg3. apply to_be_tiny. pose proof (hz_range j). pose proof (cl_n_range C L) as [_ R].
    assert (2 ^ 253 < 2 ^ 256) by reflexivity. lia.
  Qed.

  Lemma hch_ok i : kg_challenge C H kg_ssid hS i (hX i) (hA i) = Ret (hch i).
  Proof. unfold hch, kg_challenge. cbn [map sha_tagged reject_sample]. reflexivity. Qed.

  (** slots filled with the honest messages *)
  Definition filled (r : nat) (l : list bytes) : Prop :=
    length l = N /\ forall j, (j < N)%nat -> nth_error l j = Some (hm r j).
  Definition filled_but (r i : nat) (l : list bytes) : Prop :=
    length l = N /\ forall j, (j < N)%nat -> j <> i -> nth_error l j = Some (hm r j).

  Lemma new_point_rt k : new_point C (of_be (to_be (px (gmul k)))) (of_be (to_be (py (gmul k)))) = Some (gmul k).
  Proof.
    pose proof (coord_range k) as [X1 X2]. rewrite !of_be_to_be_nonneg by lia.
    pose proof (gmul_on C L k) as Ho. unfold on in Ho. unfold new_point. rewrite Ho. destruct (gmul k); reflexivity.
  Qed.

  Lemma upd_repeat_len {A} i (v a : A) k : length (upd i v (repeat a k)) = k.
  Proof. rewrite upd_length, repeat_length. reflexivity. Qed.

  Lemma exec1 i ch r1 r2 r3 : (i < N)%nat -> length r1 = N ->
    kg_r1_exec C H (rnd i) (st 0 i ch r1 r2 r3) = Ret (okd (hm 1 i), st 1 i ch (upd i (hm 1 i) r1) r2 r3).
  Proof.
    intros Hi Hl. unfold kg_r1_exec. cbn [st kp_i kp_save sv sv_priv kp_ids].
    rewrite !base_mul_eq by auto. cbn [st sv Nat.leb sv_pub sv_priv kp_r1 kp_save].
    rewrite store_nat by (rewrite repeat_length; exact Hi). cbn [obind].
    rewrite idx_nat. rewrite (nth_error_nth' (keys ids) 0) by (unfold keys; rewrite map_length; lia). cbn [obind].
    rewrite store_nat by lia. reflexivity.
  Qed.

  Lemma exec2 i ch r1 r2 r3 : (i < N)%nat -> filled 1 r1 -> length r2 = N ->
    kg_r2_exec (st 1 i ch r1 r2 r3) = Ret (okd (hm 2 i), st 2 i ch r1 (upd i (hm 2 i) r2) r3).
  Proof.
    intros Hi [Hl Hf] Hl2. unfold kg_r2_exec. cbn [k_set_number st kp_r1]. rewrite Hl.
    rewrite (r2_loop_ok hv).
    2:{ intros j Hj. apply in_seq in Hj. cbn [k_set_number st kp_r1]. erewrite nth_error_nth by (apply Hf; lia). apply parse_hm1. }
    cbn [obind k_set_number st kp_V Nat.leb k_set_V kp_save sv sv_pub kp_i kp_A kp_ssid kp_srid kp_u kp_r2].
    rewrite idx_nat, nth_error_upd_same by (rewrite repeat_length; exact Hi). cbn [obind deref].
    rewrite store_nat by lia. cbn [obind].
    assert (EV : fold_upd hv (seq 0 N) (repeat [] N) = map hv (seq 0 N)).
    { pose proof (fold_upd_all hv (repeat [] N)) as E. rewrite repeat_length in E. exact E. }
    rewrite EV. reflexivity.
  Qed.

  Lemma exec3 i ch r1 r2 r3 : (i < N)%nat -> filled_but 2 i r2 -> length r3 = N ->
    kg_r3_exec C H (st 2 i ch r1 r2 r3) = Ret (okd (hm 3 i), st 3 i ch r1 r2 (upd i (hm 3 i) r3)).
  Proof.
    intros Hi [Hl Hf] Hl3. unfold kg_r3_exec. cbn [k_set_number st kp_r2]. rewrite Hl.
    rewrite (r3_loop_ok C H hX hA hsrid hu hm2c).
    2:{ intros j Hj Hji. apply in_seq in Hj. cbn [k_set_number st kp_r2 kp_ssid kp_V Nat.leb kp_i] in *.
        erewrite nth_error_nth by (apply Hf; lia). rewrite parse_hm2 by lia.
        cbn [hm2c k2_ssid k2_srid k2_ax k2_ay k2_xx k2_xy k2_u].
        split; [reflexivity|]. split; [apply new_point_rt|]. split; [apply new_point_rt|]. repeat (split; [reflexivity|]).
        erewrite nth_error_nth by (apply nth_error_map_seq; lia). reflexivity. }
    set (js := filter (fun j => negb (j =? i)%nat) (seq 0 N)).
    assert (ES : fold_left xor (map hsrid js) (hsrid i) = hS).
    { rewrite fold_left_xor. unfold hS. rewrite <- (xors_perm (map hsrid (i :: js)) (map hsrid (seq 0 N))).
      - reflexivity.
      - apply Permutation_map. apply filter_seq_perm. exact Hi. }
    assert (EP : fold_upd (fun j => Some (hX j)) js (upd i (Some (hX i)) (repeat None N)) = map (fun j => Some (hX j)) (seq 0 N)).
    { apply list_eq_nth. intro k. rewrite fold_upd_nth, upd_repeat_len. unfold js. rewrite existsb_filter, existsb_seq.
      destruct (Nat.ltb_spec k N); cbn [andb].
      - rewrite nth_error_map_seq by auto. destruct (Nat.eqb_spec k i) as [->|E]; cbn; [|reflexivity].
        apply nth_error_upd_same. rewrite repeat_length; auto.
      - rewrite (proj2 (nth_error_None _ _)) by (rewrite upd_repeat_len; lia). symmetry. apply nth_error_None. rewrite map_length, seq_length. lia. }
    assert (EPl : fold_upd (fun j => Some (mk_payload hA hsrid hu kg_ssid j)) js (repeat None N) = map (hpl i) (seq 0 N)).
    { apply list_eq_nth. intro k. rewrite fold_upd_nth, repeat_length. unfold js. rewrite existsb_filter, existsb_seq.
      destruct (Nat.ltb_spec k N); cbn [andb].
      - rewrite nth_error_map_seq by auto. unfold hpl. destruct (Nat.eqb_spec k i) as [->|E]; cbn; [|reflexivity].
        apply nth_error_repeat; auto.
      - rewrite (proj2 (nth_error_None _ _)) by (rewrite repeat_length; lia). symmetry. apply nth_error_None. rewrite map_length, seq_length. lia. }
    assert (ER : r3_state hX hA hsrid hu i (seq 0 N) (k_set_number 3 (st 2 i ch r1 r2 r3)) = st 3 i ch r1 r2 r3).
    { unfold r3_state. fold js. unfold k_set_srid, k_set_save, k_set_payload, k_set_number, set_pub, st.
      cbn [kp_i kp_ids kp_save kp_tau kp_A kp_srid kp_u kp_payload kp_ssid kp_V kp_r1 kp_r2 kp_r3 kp_number sv sv_pub Nat.leb
           sv_priv sv_share sv_chain sv_ks sv_ed sv_pks sv_peds].
      rewrite EP, EPl, ES. reflexivity. }
    change (kp_i (k_set_number 3 (st 2 i ch r1 r2 r3))) with i. rewrite ER.
    cbn [obind st kp_save sv sv_pub Nat.leb kp_i kp_A kp_ssid kp_srid kp_tau sv_priv kp_r3].
    rewrite idx_nat, nth_error_map_seq by auto. cbn [obind deref].
    rewrite hch_ok. cbn [obind]. rewrite store_nat by lia. reflexivity.
  Qed.

  Lemma exec4 i ch r1 r2 r3 : (i < N)%nat -> filled_but 3 i r3 ->
    kg_r4_exec C H (st 3 i ch r1 r2 r3) = Ret (okd (save_enc (sv 4 i ch)), st 4 i ch r1 r2 r3).
  Proof.
    intros Hi [Hl Hf]. unfold kg_r4_exec. cbn [k_set_number st kp_r3]. rewrite Hl.
    rewrite (r4_loop_ok C H hX hA hsrid hu hch (fun j => to_be (hz j))).
    2:{ intros j Hj Hji. apply in_seq in Hj. cbn [k_set_number st kp_r3 kp_ssid kp_srid kp_payload kp_save sv sv_pub Nat.leb kp_i] in *.
        erewrite nth_error_nth by (apply Hf; lia). rewrite parse_hm3.
        split; [reflexivity|]. split; [erewrite nth_error_nth by (apply nth_error_map_seq; lia); reflexivity|].
        split; [erewrite nth_error_nth by (apply nth_error_map_seq; lia); unfold hpl; replace (j =? i)%nat with false by (symmetry; apply Nat.eqb_neq; auto); reflexivity|].
        split; [apply hch_ok|]. pose proof (hz_range j). rewrite of_be_to_be_nonneg by lia. apply sch_complete; auto. }
    cbn [obind k_set_number st kp_save sv sv_pub Nat.leb].
    replace (map (fun j => Some (hX j)) (seq 0 N)) with (map (fun y => Some (gmul y)) (map x (seq 0 N)))
      by (rewrite map_map; reflexivity).
    rewrite sum_pub_gmul by (first [exact L|destruct N; [lia|discriminate]]). cbn [obind]. fold hY.
    reflexivity.
  Qed.
End Honest.
