(** SignExec.v -- what each signing round does when its inputs are good, and the honest states it moves between. *)
From Verif Require Import Base BigInt HashFrame Text Wire Messages PartyID Curve Json Save Keygen KeygenNet KeygenHonest KeygenWorld NumTh Paillier RangeProofs RangeThm PropRange Ckd Subset Onsign OnsignEnc OnsignHist PropSign SignHonest.
From Coq Require Import Permutation Znumtheory.

Lemma top_bits_conv b : length b = 32%nat -> of_le b < 2 ^ 253 -> Z.land (bz (nth 31 b (zb 0))) 224 = 0.
Proof.
  intros Hl H. assert (S : b = firstn 31 b ++ [nth 31 b (zb 0)]).
  { clear H. rewrite <- (firstn_skipn 31 b) at 1. f_equal. do 31 (destruct b as [|? b]; [discriminate|]). cbn in *. destruct b as [|x b]; [discriminate|]. destruct b; [reflexivity|discriminate]. }
  set (x := nth 31 b (zb 0)) in *. assert (L1 : length (firstn 31 b) = 31%nat) by (rewrite firstn_length; lia).
  rewrite S in H. rewrite of_le_app in H. rewrite L1 in H. pose proof (of_le_range (firstn 31 b)) as R. cbn [of_le] in H.
  pose proof (bz_range x) as Rb. assert (E253 : 2 ^ 253 = 256 ^ Z.of_nat 31 * 32) by reflexivity. rewrite E253 in H. clear E253.
  assert (P : 0 < 256 ^ Z.of_nat 31) by reflexivity. assert (X : bz x < 32) by (clear - R H P; generalize dependent (256 ^ Z.of_nat 31); intros; nia). clear H R P.
  assert (G : forallb (fun k => Z.land (Z.of_nat k) 224 =? 0) (seq 0 32) = true) by reflexivity.
  rewrite forallb_forall in G. specialize (G (Z.to_nat (bz x)) ltac:(apply in_seq; lia)). rewrite Z2Nat.id in G by lia. lia.
Qed.

Lemma fold_upd_only {A} (w : nat -> A) i N (l : list A) : (i < N)%nat ->
  fold_upd w (filter (fun j => (j =? i)%nat) (seq 0 N)) l = upd i (w i) l.
Proof.
  intro Hi. apply list_eq_nth. intro k. rewrite fold_upd_nth, nth_error_upd.
  assert (E : existsb (Nat.eqb k) (filter (fun j => (j =? i)%nat) (seq 0 N)) = (i =? k)%nat).
  { apply eq_true_iff_eq. rewrite existsb_exists, Nat.eqb_eq. split.
    - intros (x & Hx & E). apply filter_In in Hx. destruct Hx as [_ Hx]. apply Nat.eqb_eq in Hx, E. congruence.
    - intros <-. exists i. split; [|apply Nat.eqb_refl]. apply filter_In. split; [apply in_seq; lia|apply Nat.eqb_refl]. }
  rewrite E. destruct (Nat.eqb_spec i k) as [->|]; reflexivity.
Qed.
Lemma fold_upd_map {A} (w : nat -> A) a N : fold_upd w (seq 0 N) (repeat a N) = map w (seq 0 N).
Proof. pose proof (fold_upd_all w (repeat a N)) as E. rewrite repeat_length in E. exact E. Qed.
Lemma fold_upd_others {A} (w : nat -> A) i a N : (i < N)%nat ->
  fold_upd w (others i N) (upd i (w i) (repeat a N)) = map w (seq 0 N).
Proof.
  intro Hi. apply list_eq_nth. intro k. rewrite fold_upd_nth, upd_length, repeat_length. unfold others. rewrite existsb_filter, existsb_seq.
  destruct (Nat.ltb_spec k N) as [Hk|Hk]; cbn [andb].
  - rewrite (nth_error_map_seq w N k Hk). destruct (Nat.eqb_spec k i) as [->|E]; cbn [negb andb]; [|reflexivity].
    apply nth_error_upd_same. rewrite repeat_length; exact Hi.
  - rewrite (proj2 (nth_error_None _ _)) by (rewrite upd_length, repeat_length; lia). symmetry. apply nth_error_None. rewrite map_length, seq_length. lia.
Qed.
Lemma fold_add_perm l l' : Permutation l l' -> fold_right Z.add 0 l = fold_right Z.add 0 l'.
Proof. induction 1; cbn [fold_right]; lia. Qed.
Lemma zsum_others f i N : (i < N)%nat -> f i + fold_right Z.add 0 (map f (others i N)) = zsum N f.
Proof.
  intro Hi. unfold zsum. rewrite <- (fold_add_perm (map f (i :: others i N)) (map f (seq 0 N))); [reflexivity|].
  apply Permutation_map, filter_seq_perm. exact Hi.
Qed.

Lemma below_bits x M b : 0 <= x < M -> bits M b -> bits x b. Proof. unfold bits. lia. Qed.

Section Loops.
  Variables (C : curve) (D : edlib) (B S5 : bytes -> bytes).
  Hypothesis L : curve_laws C.
  Notation n := (c_n C).

  Lemma s1_loop_ok (pd : nat -> ped) (e : nat -> encmsg) js k rho K N d p :
    (forall j, In j js -> get_ped p j = Ret (pd j) /\ enc_new C B (sctx (sp_ssid p) (sp_i p)) K N k rho (pd j) (d j) = Ret (Some (e j)) /\
       (j < length (sp_out12 p))%nat) -> (sp_i p < length (sp_r12 p))%nat ->
    let w j := wire_bytes (CS12 (encmsg_enc (e j))) in
    s1_loop C B js k rho K N d p =
      Ret (None, s_set_r12 (fold_upd w (filter (fun j => (j =? sp_i p)%nat) js) (sp_r12 p)) (s_set_out12 (fold_upd w js (sp_out12 p)) p)).
  Proof.
    intros H Hi w. revert p H Hi. induction js as [|j js IH]; intros p H Hi; cbn [s1_loop filter].
    - destruct p; reflexivity.
    - destruct (H j (or_introl eq_refl)) as (P1 & P2 & P3). rewrite P1. cbn [obind]. rewrite P2. cbn [obind]. fold (w j).
      rewrite store_nat by exact P3. cbn [obind]. cbn [s_set_out12 sp_i sp_r12].
      destruct (Nat.eqb_spec j (sp_i p)) as [E|E].
      + rewrite store_nat by exact Hi. cbn [obind]. rewrite IH.
        * cbn [s_set_r12 s_set_out12 sp_i sp_r12 sp_out12]. rewrite E. reflexivity.
        * intros k' Hk'. destruct (H k' (or_intror Hk')) as (Q1 & Q2 & Q3). split; [exact Q1|]. split; [exact Q2|]. cbn [s_set_r12 s_set_out12 sp_out12]. rewrite upd_length. exact Q3.
        * cbn [s_set_r12 s_set_out12 sp_i sp_r12]. rewrite upd_length. exact Hi.
      + rewrite IH; [reflexivity| |exact Hi].
        intros k' Hk'. destruct (H k' (or_intror Hk')) as (Q1 & Q2 & Q3). split; [exact Q1|]. split; [exact Q2|]. cbn [s_set_out12 sp_out12]. rewrite upd_length. exact Q3.
  Qed.

  Lemma s2_verify_ok (kb eb : nat -> bytes) (m : nat -> encmsg) (NN : nat -> Z) pd js p :
    get_ped p (sp_i p) = Ret pd ->
    (forall j, In j js -> j <> sp_i p ->
      parse_wire (nth j (sp_r11 p) []) = Some (CS11 (kb j)) /\
      (exists w, nth_error (sp_r12 p) j = Some w /\ parse_wire w = Some (CS12 (eb j))) /\ encmsg_dec (eb j) = Some (m j) /\
      get_N p j = Ret (NN j) /\ enc_verify C B (sctx (sp_ssid p) j) (of_be (kb j)) (NN j) pd (m j) = Ret true /\ (j < length (sp_K p))%nat) ->
    s2_verify C B js p = Ret (None, s_set_K (fold_upd (fun j => Some (of_be (kb j))) (filter (fun j => negb (j =? sp_i p)%nat) js) (sp_K p)) p).
  Proof.
    intros HP. revert p HP. induction js as [|j js IH]; intros p HP H; cbn [s2_verify filter].
    - destruct p; reflexivity.
    - destruct (Nat.eqb_spec j (sp_i p)) as [E|E]; cbn [negb].
      + apply IH; [exact HP|]. intros k Hk. apply H. right; exact Hk.
      + destruct (H j (or_introl eq_refl) E) as (P1 & (w & P2 & P3) & P4 & P5 & P6 & P7).
        unfold s2_one. rewrite P1. rewrite store_nat by exact P7. cbn [obind s_set_K sp_r12]. rewrite idx_nat, P2. cbn [obind].
        rewrite P3, P4. change (get_N (s_set_K (upd j (Some (of_be (kb j))) (sp_K p)) p) j) with (get_N p j). rewrite P5. cbn [obind].
        change (get_ped (s_set_K (upd j (Some (of_be (kb j))) (sp_K p)) p) (sp_i (s_set_K (upd j (Some (of_be (kb j))) (sp_K p)) p))) with (get_ped p (sp_i p)).
        rewrite HP. cbn [obind s_set_K sp_ssid]. rewrite P6. cbn [obind].
        rewrite IH; [reflexivity|exact HP|].
        intros k Hk Hki. destruct (H k (or_intror Hk) Hki) as (Q1 & Q2 & Q3 & Q4 & Q5 & Q6).
        split; [exact Q1|]. split; [exact Q2|]. split; [exact Q3|]. split; [exact Q4|]. split; [exact Q5|]. cbn [s_set_K sp_K]. rewrite upd_length. exact Q6.
  Qed.

  Lemma s2_loop_ok (pd : nat -> ped) (l : nat -> logmsg) js k Ri N d rho K p :
    sp_rho p = Some rho -> nth_error (sp_K p) (sp_i p) = Some (Some K) ->
    (forall j, In j js -> get_ped p j = Ret (pd j) /\ log_new C B (sctx (sp_ssid p) (sp_i p)) k rho K N (pd j) Ri (d j) = Ret (Some (l j)) /\
       log_verify C B (sctx (sp_ssid p) (sp_i p)) K N (pd j) Ri (l j) = Ret true /\ (j < length (sp_out2 p))%nat) -> (sp_i p < length (sp_r2 p))%nat ->
    let w j := wire_bytes (CS2 (to_be (px Ri)) (to_be (py Ri)) (logmsg_enc (l j))) in
    s2_loop C B js k Ri N d p =
      Ret (None, s_set_r2 (fold_upd w (filter (fun j => (j =? sp_i p)%nat) js) (sp_r2 p)) (s_set_out2 (fold_upd w js (sp_out2 p)) p)).
  Proof.
    intros HR HK H Hi w. revert p HR HK H Hi. induction js as [|j js IH]; intros p HR HK H Hi; cbn [s2_loop filter].
    - destruct p; reflexivity.
    - destruct (H j (or_introl eq_refl)) as (P1 & P2 & P2' & P3). rewrite P1. cbn [obind]. rewrite idx_nat, HK. cbn [obind].
      unfold log_new_opt. rewrite HR, P2. cbn [obind deref]. rewrite P2'. cbn [obind negb]. fold (w j).
      rewrite store_nat by exact P3. cbn [obind]. cbn [s_set_out2 sp_i sp_r2].
      destruct (Nat.eqb_spec j (sp_i p)) as [E|E].
      + rewrite store_nat by exact Hi. cbn [obind]. rewrite IH; [|exact HR|exact HK| |].
        * cbn [s_set_r2 s_set_out2 sp_i sp_r2 sp_out2]. rewrite E. reflexivity.
        * intros k' Hk'. destruct (H k' (or_intror Hk')) as (Q1 & Q2 & Q2' & Q3). split; [exact Q1|]. split; [exact Q2|]. split; [exact Q2'|]. cbn [s_set_r2 s_set_out2 sp_out2]. rewrite upd_length. exact Q3.
        * cbn [s_set_r2 s_set_out2 sp_i sp_r2]. rewrite upd_length. exact Hi.
      + rewrite IH; [reflexivity|exact HR|exact HK| |exact Hi].
        intros k' Hk'. destruct (H k' (or_intror Hk')) as (Q1 & Q2 & Q2' & Q3). split; [exact Q1|]. split; [exact Q2|]. split; [exact Q2'|]. cbn [s_set_out2 sp_out2]. rewrite upd_length. exact Q3.
  Qed.

  Lemma new_pt_rt k : new_point C (of_be (to_be (px (gmul C k)))) (of_be (to_be (py (gmul C k)))) = Some (gmul C k).
  Proof.
    pose proof (cl_coord C L _ (gmul_canon C L k)) as [X1 X2]. rewrite !of_be_to_be_nonneg by lia.
    pose proof (gmul_on C L k) as Ho. unfold on in Ho. unfold new_point. rewrite Ho. destruct (gmul C k); reflexivity.
  Qed.
  Lemma inv8_ok : (8 * inv8 C) mod n = 1.
  Proof.
    pose proof (cl_n_range C L) as R. pose proof (cl_prime C L) as P. unfold inv8.
    destruct (invm_some 8 n) as (b & E & _ & Cg); [lia| |rewrite E].
    - apply Zgcd_1_rel_prime. apply rel_prime_le_prime; auto. lia.
    - apply cong_eq in Cg; [|lia]. rewrite Cg. apply Z.mod_small. lia.
  Qed.
  Lemma s3_loop_ok (kk : nat -> Z) (lb : nat -> bytes) (m : nat -> logmsg) (K NN : nat -> Z) pd z js a p :
    get_ped p (sp_i p) = Ret pd ->
    (forall j, In j js -> j <> sp_i p ->
      parse_wire (nth j (sp_r2 p) []) = Some (CS2 (to_be (px (gmul C (kk j)))) (to_be (py (gmul C (kk j)))) (lb j)) /\
      logmsg_dec (lb j) = Some (m j) /\ nth_error (sp_K p) j = Some (Some (K j)) /\
      get_N p j = Ret (NN j) /\ log_verify C B (sctx (sp_ssid p) j) (K j) (NN j) pd (gmul C (kk j)) (m j) = Ret true /\
      z j mod ed_p D <> 0) ->
    s3_loop C D B js z (Some (gmul C a)) p =
      Ret (inr (Some (gmul C (a + fold_right Z.add 0 (map kk (filter (fun j => negb (j =? sp_i p)%nat) js)))))).
  Proof.
    intros HP. revert a. induction js as [|j js IH]; intros a H; cbn [s3_loop filter].
    - cbn [map fold_right]. rewrite Z.add_0_r. reflexivity.
    - destruct (Nat.eqb_spec j (sp_i p)) as [E|E]; cbn [negb].
      + apply IH. intros k Hk. apply H. right; exact Hk.
      + destruct (H j (or_introl eq_refl) E) as (P1 & P2 & P3 & P4 & P5 & P6).
        unfold s3_one. rewrite P1, P2, new_pt_rt. rewrite idx_nat, P3. cbn [obind deref]. rewrite P4, HP. cbn [obind].
        rewrite P5. cbn [obind negb]. rewrite eight_inv_eight_gmul by (exact L || exact inv8_ok). cbn [obind ext_add].
        destruct (Z.eqb_spec (z j mod ed_p D) 0); [contradiction|]. rewrite gmul_add by exact L. rewrite IH.
        * cbn [map fold_right]. rewrite Z.add_assoc. reflexivity.
        * intros k Hk. apply H. right; exact Hk.
  Qed.

  Lemma sf_loop_ok (s : nat -> Z) js a p : 0 <= a < n ->
    (forall j, In j js -> j <> sp_i p -> exists w, nth_error (sp_r3 p) j = Some w /\ parse_wire w = Some (CS3 (to_be (s j))) /\ 0 <= s j < n) ->
    sf_loop C js (Some (le_fixed 32 a)) p =
      Ret (inr (Some (le_fixed 32 ((a + fold_right Z.add 0 (map s (filter (fun j => negb (j =? sp_i p)%nat) js))) mod n)))).
  Proof.
    pose proof (cl_n_range C L) as RN. assert (B256 : 2 ^ 253 < 2 ^ 256) by reflexivity.
    revert a. induction js as [|j js IH]; intros a Ha H; cbn [sf_loop filter].
    - cbn [map fold_right]. rewrite Z.add_0_r, Z.mod_small by lia. reflexivity.
    - destruct (Nat.eqb_spec j (sp_i p)) as [E|E]; cbn [negb].
      + apply IH; [exact Ha|]. intros k Hk. apply H. right; exact Hk.
      + destruct (H j (or_introl eq_refl) E) as (w & P1 & P2 & P3). rewrite idx_nat, P1. cbn [obind]. rewrite P2. cbn [obind deref].
        rewrite of_be_to_be_nonneg by lia. unfold sc_muladd. rewrite !big_enc_small by lia.
        rewrite !of_le_le_fixed_small by (rewrite pow256_32; lia). rewrite Z.mul_1_r. rewrite IH.
        * cbn [map fold_right]. rewrite Zplus_mod_idemp_l, Z.add_assoc. reflexivity.
        * apply Z.mod_pos_bound. lia.
        * intros k Hk. apply H. right; exact Hk.
  Qed.
End Loops.

Definition s_up (s : skind -> list bytes) (k : skind) (v : list bytes) : skind -> list bytes := fun k' => if skind_eqb k k' then v else s k'.

Section Exec.
  Variables (C : curve) (D : edlib) (B S5 : bytes -> bytes).
  Hypothesis L : curve_laws C.
  Hypothesis LD : ed_laws C D.
  Notation n := (c_n C).
  Notation gmul := (gmul C).
  Variable N : nat.
  Variable ids : list party_id.
  Hypothesis Hids : length ids = N.
  Variables (y NN : nat -> Z) (pdv : nat -> ped) (m : Z) (sv0 : nat -> save).
  Variables (rnd : nat -> s1_rand) (d2 : nat -> nat -> pdraws) (zz : nat -> nat -> Z).
  Hypothesis HS : forall i, (i < N)%nat -> signer_data C N y NN pdv i (sv0 i).
  Hypothesis HP : forall i, (i < N)%nat -> params_ok C y NN pdv i.
  Hypothesis HR : forall i, (i < N)%nat -> rand_ok C D B N NN pdv rnd d2 zz i.
  Notation hmsg := (hmsg C D B S5 N y NN pdv m rnd d2).
  Notation sst := (sst C D B S5 N ids y NN pdv m sv0 rnd d2).
  Notation hk := (hk rnd).
  Notation hK := (hK NN rnd).
  Notation hs := (hs C D S5 N y m rnd).
  Notation he := (he C B NN pdv rnd).
  Notation hl := (hl C B NN pdv rnd d2).
  Notation sY := (sY C N y).
  Notation sR := (sR C N rnd).
  Notation hlam := (hlam C D S5 N y m rnd).
  Notation hsum := (hsum C D S5 N y m rnd).
  Notation hdata := (hdata C D S5 N y m rnd).

  Lemma b253 : 2 ^ 253 < 2 ^ 256. Proof. reflexivity. Qed.
  Lemma hs_range i : 0 <= hs i < n.
  Proof. pose proof (cl_n_range C L). apply Z.mod_pos_bound. lia. Qed.
  Lemma hlam_range : 0 <= hlam < n.
  Proof. pose proof (cl_n_range C L). apply Z.mod_pos_bound. lia. Qed.
  Lemma hsum_range : 0 <= hsum < n.
  Proof. pose proof (cl_n_range C L). apply Z.mod_pos_bound. lia. Qed.
  Lemma small_tiny z : 0 <= z < 2 ^ 256 -> tiny (to_be z). Proof. apply to_be_tiny. Qed.

  Lemma parse_k11 j i : (j < N)%nat -> parse_wire (hmsg K11 j i) = Some (CS11 (to_be (hK j))).
  Proof.
    intro Hj. cbn [SignHonest.hmsg]. apply parse_wire_bytes, ok_s11. apply short_tiny.
    pose proof (hK_range C D B N ids Hids y NN pdv sv0 rnd d2 zz HS HP HR j Hj) as R. destruct (HP j Hj) as [_ (_ & _ & Nb) _].
    apply (to_be_bits _ 8192); [|lia]. apply (below_bits _ _ _ R). change 8192 with (4096 + 4096). apply bits_mul; auto; lia.
  Qed.
  Lemma parse_k12 j i : (j < N)%nat -> (i < N)%nat -> parse_wire (hmsg K12 j i) = Some (CS12 (encmsg_enc (he j i))).
  Proof. intros Hj Hi. cbn [SignHonest.hmsg]. apply parse_wire_bytes, ok_s12. apply (he_ok C D B L N ids Hids y NN pdv sv0 rnd d2 zz HS HP HR j i Hj Hi). Qed.
  Lemma parse_k2 j i : (j < N)%nat -> (i < N)%nat ->
    parse_wire (hmsg K2 j i) = Some (CS2 (to_be (px (gmul (hk j)))) (to_be (py (gmul (hk j)))) (logmsg_enc (hl j i))).
  Proof.
    intros Hj Hi. cbn [SignHonest.hmsg]. pose proof (cl_coord C L _ (gmul_canon C L (hk j))) as [X1 X2].
    apply parse_wire_bytes, ok_s2; try (apply small_tiny; assumption). apply (hl_ok C D B L N ids Hids y NN pdv sv0 rnd d2 zz HS HP HR j i Hj Hi).
  Qed.
  Lemma parse_k3 j i : parse_wire (hmsg K3 j i) = Some (CS3 (to_be (hs j))).
  Proof.
    cbn [SignHonest.hmsg]. apply parse_wire_bytes, ok_s3, small_tiny. pose proof (hs_range j). pose proof (cl_n_range C L). pose proof b253. lia.
  Qed.
  Lemma hmsg_nonempty k j i : hmsg k j i <> []. Proof. destruct k; apply wire_bytes_nonempty. Qed.

  (** slots filled with the honest messages addressed to i *)
  Definition sfilled (k : skind) (i : nat) (l : list bytes) : Prop :=
    length l = N /\ forall j, (j < N)%nat -> nth_error l j = Some (hmsg k j i).

  Lemma sst_N c i s j : (i < N)%nat -> (j < N)%nat -> get_N (sst c i s) j = Ret (NN j).
  Proof.
    intros Hi Hj. unfold get_N. cbn [SignHonest.sst sp_save].
    assert (E : sv_pks (if (1 <=? c)%nat then set_ed (Some sY) (sv0 i) else sv0 i) = map (fun j => Some (Some (NN j))) (seq 0 N)).
    { destruct (1 <=? c)%nat; cbn [set_ed sv_pks]; apply (sd_pks _ _ _ _ _ _ _ (HS i Hi)). }
    rewrite E, idx_nat, nth_error_map_seq by exact Hj. reflexivity.
  Qed.
  Lemma sst_ped c i s j : (i < N)%nat -> (j < N)%nat -> get_ped (sst c i s) j = Ret (pdv j).
  Proof.
    intros Hi Hj. unfold get_ped. cbn [SignHonest.sst sp_save].
    assert (E : sv_peds (if (1 <=? c)%nat then set_ed (Some sY) (sv0 i) else sv0 i) = map (fun j => Some (ped_some (pdv j))) (seq 0 N)).
    { destruct (1 <=? c)%nat; cbn [set_ed sv_peds]; apply (sd_peds _ _ _ _ _ _ _ (HS i Hi)). }
    rewrite E, idx_nat, nth_error_map_seq by exact Hj. cbn [obind deref ped_some pd_n pd_s pd_t]. destruct (pdv j); reflexivity.
  Qed.

  Lemma exec1 i s : (i < N)%nat -> length (s K11) = N -> length (s K12) = N ->
    sg_r1_exec C B (rnd i) (sst 0 i s) =
      Ret (okd (hmsg K11 i i), sst 1 i (s_up (s_up s K11 (upd i (hmsg K11 i i) (s K11))) K12 (upd i (hmsg K12 i i) (s K12)))).
  Proof.
    intros Hi H1 H2. unfold sg_r1_exec.
    assert (EP : sum_pub C (sv_pub (sv0 i)) = Ret (inr sY)).
    { rewrite (sd_pub _ _ _ _ _ _ _ (HS i Hi)). rewrite <- (map_map y (fun v => Some (gmul v))). apply sum_pub_gmul; [exact L|]. destruct N; [lia|discriminate]. }
    cbn [s_set_number s_set_ssid sp_save SignHonest.sst Nat.leb]. rewrite EP. cbn [obind].
    set (p1 := s_set_k (Some (s1_k (rnd i))) _).
    assert (EN : get_N p1 (sp_i p1) = Ret (NN i)) by (apply (sst_N 1 i s i Hi Hi)).
    rewrite EN. cbn [obind]. destruct (hK_nonce C D B N ids Hids y NN pdv sv0 rnd d2 zz HS HP HR i i Hi Hi) as [EK _].
    unfold SignHonest.hk in EK. unfold hrho in EK. rewrite EK.
    assert (EKs : store (sp_K p1) (Z.of_nat (sp_i p1)) (Some (hK i)) = Ret (upd i (Some (hK i)) (repeat None N))) by (apply store_nat; cbn; rewrite repeat_length; exact Hi).
    rewrite EKs. cbn [obind]. cbn [s_set_K s_set_rho sp_r11 sp_i p1 s_set_k s_set_ed s_set_ssid s_set_number].
    match goal with |- context [store ?a _ _] => change a with (s K11) end. rewrite store_nat by (rewrite H1; exact Hi). cbn [obind].
    match goal with |- context [s1_loop C B _ _ _ _ _ _ ?q] => set (p2 := q) end.
    rewrite (s1_loop_ok C B pdv (he i)).
    - cbn [obind]. change (sp_i p2) with i. change (sp_ids p2) with ids. change (sp_r12 p2) with (s K12). change (sp_out12 p2) with (@repeat bytes [] N). rewrite Hids.
      rewrite fold_upd_only by exact Hi. rewrite fold_upd_map. reflexivity.
    - intros j Hj. change (sp_ids p2) with ids in Hj. rewrite Hids in Hj. apply in_seq in Hj.
      split; [apply (sst_ped 1 i s j Hi); lia|]. split; [apply (he_ok C D B L N ids Hids y NN pdv sv0 rnd d2 zz HS HP HR i j Hi); lia|]. cbn. rewrite repeat_length. lia.
    - cbn. rewrite H2. exact Hi.
  Qed.

  Lemma exec2 i s : (i < N)%nat -> sfilled K11 i (s K11) -> sfilled K12 i (s K12) -> length (s K2) = N ->
    sg_r2_exec C B (d2 i) (sst 1 i s) = Ret (ok0, sst 2 i (s_up s K2 (upd i (hmsg K2 i i) (s K2)))).
  Proof.
    intros Hi [L1 F1] [L2 F2] L3. unfold sg_r2_exec.
    match goal with |- context [s2_verify C B _ ?q] => set (p1 := q) end.
    rewrite (s2_verify_ok C B (fun j => to_be (hK j)) (fun j => encmsg_enc (he j i)) (fun j => he j i) NN (pdv i)).
    - cbn [obind]. change (sp_i p1) with i. change (sp_r11 p1) with (s K11). change (sp_K p1) with (upd i (Some (hK i)) (repeat None N)). rewrite L1. fold (others i N).
      assert (EK : fold_upd (fun j => Some (of_be (to_be (hK j)))) (others i N) (upd i (Some (hK i)) (repeat None N)) = map (fun j => Some (hK j)) (seq 0 N)).
      { transitivity (map (fun j => Some (of_be (to_be (hK j)))) (seq 0 N)).
        - rewrite <- (fold_upd_others (fun j => Some (of_be (to_be (hK j)))) i None N Hi). do 2 f_equal. rewrite of_be_to_be_nonneg; [reflexivity|].
          apply (hK_range C D B N ids Hids y NN pdv sv0 rnd d2 zz HS HP HR i Hi).
        - apply map_ext_in. intros j Hj. apply in_seq in Hj. rewrite of_be_to_be_nonneg; [reflexivity|]. apply (hK_range C D B N ids Hids y NN pdv sv0 rnd d2 zz HS HP HR j). lia. }
      rewrite EK. cbn [s_set_K sp_k]. change (sp_k p1) with (Some (hk i)). cbn [deref obind]. rewrite base_mul_eq by exact L. cbn [deref obind].
      match goal with |- context [get_N ?q _] => set (p2 := q) end.
      assert (EN : get_N p2 (sp_i p2) = Ret (NN i)) by (apply (sst_N 2 i s i Hi Hi)). rewrite EN. cbn [obind].
      rewrite (s2_loop_ok C B pdv (hl i) _ _ _ _ _ (hrho rnd i) (hK i)).
      + cbn [obind]. change (sp_i p2) with i. change (sp_ids p2) with ids. change (sp_r2 p2) with (s K2). change (sp_out2 p2) with (@repeat bytes [] N). rewrite Hids.
        rewrite fold_upd_only by exact Hi. rewrite fold_upd_map. reflexivity.
      + reflexivity.
      + change (sp_i p2) with i. change (sp_K p2) with (map (fun j => Some (hK j)) (seq 0 N)). apply (nth_error_map_seq (fun j => Some (hK j)) N i Hi).
      + intros j Hj. change (sp_ids p2) with ids in Hj. rewrite Hids in Hj. apply in_seq in Hj.
        destruct (hl_ok C D B L N ids Hids y NN pdv sv0 rnd d2 zz HS HP HR i j Hi ltac:(lia)) as (Q1 & Q2 & _).
        split; [apply (sst_ped 2 i s j Hi); lia|]. split; [exact Q1|]. split; [exact Q2|]. cbn. rewrite repeat_length. lia.
      + cbn. rewrite L3. exact Hi.
    - apply (sst_ped 1 i s i Hi Hi).
    - intros j Hj Hji. change (sp_r11 p1) with (s K11) in Hj. rewrite L1 in Hj. apply in_seq in Hj. assert (Hj' : (j < N)%nat) by lia.
      split; [exact (eq_trans (f_equal parse_wire (nth_error_nth _ _ [] (F1 j Hj'))) (parse_k11 j i Hj'))|].
      split; [exists (hmsg K12 j i); split; [apply F2; exact Hj'|apply parse_k12; auto]|].
      destruct (he_ok C D B L N ids Hids y NN pdv sv0 rnd d2 zz HS HP HR j i Hj' Hi) as (_ & Q2 & Q3 & _).
      split; [exact Q3|]. split; [apply (sst_N 1 i s j Hi Hj')|]. split.
      + rewrite of_be_to_be_nonneg by (apply (hK_range C D B N ids Hids y NN pdv sv0 rnd d2 zz HS HP HR j Hj')). exact Q2.
      + cbn. rewrite upd_length, repeat_length. exact Hj'.
  Qed.

  Lemma exec3 i s : (i < N)%nat -> sfilled K2 i (s K2) -> length (s K3) = N ->
    sg_r3_exec C D B S5 (zz i) (sst 2 i s) = Ret (okd (hmsg K3 i i), sst 3 i (s_up s K3 (upd i (hmsg K3 i i) (s K3)))).
  Proof.
    intros Hi [L1 F1] L3. unfold sg_r3_exec. destruct (HR i Hi) as [Rk _ _ _ Rz]. pose proof (cl_n_range C L) as RN. pose proof b253 as B6.
    match goal with |- context [s3_loop C D B _ _ _ ?q] => set (p1 := q) end.
    assert (ER : of_le (big_enc_opt (sp_k p1)) = hk i).
    { change (sp_k p1) with (Some (hk i)). cbn [big_enc_opt]. apply C34_scalar_roundtrip. lia. }
    rewrite ER. rewrite <- gmul_smul by (exact L || lia).
    rewrite (s3_loop_ok C D B L hk (fun j => logmsg_enc (hl j i)) (fun j => hl j i) hK NN (pdv i)).
    - cbn [obind]. change (sp_i p1) with i. change (sp_r2 p1) with (s K2). rewrite L1. fold (others i N). rewrite (zsum_others hk i N Hi).
      change (gmul (zsum N hk)) with sR. cbn [ext_bytes].
      change (sv_ed (sp_save p1)) with (Some sY). change (sp_m p1) with m. change (sp_k p1) with (Some (hk i)). change (sv_priv (sp_save p1)) with (sv_priv (sv0 i)). cbn [deref obind]. rewrite (sd_priv _ _ _ _ _ _ _ (HS i Hi)). cbn [big_enc_opt].
      assert (EL : sc_reduce C (S5 (ge_bytes sR ++ point_enc D sY ++ to_be m)) = le_fixed 32 hlam) by reflexivity. rewrite EL.
      destruct (HP i Hi) as [Py _ _].
      assert (EM : sc_muladd C (le_fixed 32 hlam) (big_enc (y i)) (big_enc (hk i)) = le_fixed 32 (hs i)).
      { unfold sc_muladd. pose proof hlam_range. rewrite !(fun z H => proj2 (proj2 (C34_scalar_roundtrip z H))) by lia.
        rewrite of_le_le_fixed_small by (rewrite pow256_32; lia). reflexivity. }
      rewrite EM, !enc_to_big_le. pose proof (hs_range i). rewrite of_le_le_fixed_small by (rewrite pow256_32; lia).
      match goal with |- context [store ?a ?b _] => change a with (s K3); change b with (Z.of_nat i) end. rewrite store_nat by (rewrite L3; exact Hi). cbn [obind].
      reflexivity.
    - apply (sst_ped 2 i s i Hi Hi).
    - intros j Hj Hji. change (sp_r2 p1) with (s K2) in Hj. rewrite L1 in Hj. apply in_seq in Hj. assert (Hj' : (j < N)%nat) by lia.
      destruct (hl_ok C D B L N ids Hids y NN pdv sv0 rnd d2 zz HS HP HR j i Hj' Hi) as (_ & Q2 & Q3 & _).
      split; [exact (eq_trans (f_equal parse_wire (nth_error_nth _ _ [] (F1 j Hj'))) (parse_k2 j i Hj' Hi))|].
      split; [exact Q3|]. split; [change (sp_K p1) with (map (fun j => Some (hK j)) (seq 0 N)); apply (nth_error_map_seq (fun j => Some (hK j)) N j Hj')|].
      split; [apply (sst_N 2 i s j Hi Hj')|]. split; [exact Q2|apply Rz].
  Qed.

  Lemma neg_sY : ed_neg D sY = gmul (- zsum N y).
  Proof.
    pose proof (gmul_canon C L (zsum N y)) as Cn. apply (add_cancel_l C L sY); [apply gmul_on; exact L|apply (el_neg_canon C D LD); exact Cn|apply gmul_canon; exact L|].
    rewrite (el_neg C D LD) by exact Cn. unfold SignHonest.sY. rewrite gmul_add by exact L. rewrite Z.add_opp_diag_r. symmetry. apply gmul_0. exact L.
  Qed.
  Lemma zsum_lin a f g : zsum N (fun i => a * f i + g i) = a * zsum N f + zsum N g.
  Proof. unfold zsum. induction (seq 0 N) as [|i l IH]; cbn [map fold_right]; [lia|]. rewrite IH. lia. Qed.
  Lemma zsum_mod f k : k <> 0 -> zsum N (fun i => f i mod k) mod k = zsum N f mod k.
  Proof.
    intro Hk. unfold zsum. induction (seq 0 N) as [|i l IH]; cbn [map fold_right]; [reflexivity|].
    rewrite Zplus_mod_idemp_l. rewrite <- Zplus_mod_idemp_r, IH, Zplus_mod_idemp_r. reflexivity.
  Qed.
  Lemma hsum_eq : hsum = (hlam * zsum N y + zsum N hk) mod n.
  Proof. unfold SignHonest.hsum, SignHonest.hs. rewrite (zsum_mod (fun i => hlam * y i + hk i)) by (pose proof (cl_n_range C L); lia). rewrite zsum_lin. reflexivity. Qed.

  Lemma verify_ok : ed_verify C D S5 sY (to_be m) (of_le (ge_bytes sR)) hsum = true.
  Proof.
    pose proof (cl_n_range C L) as RN. pose proof b253 as B6. pose proof hsum_range as RS. pose proof (gmul_canon C L (zsum N y)) as Cy.
    unfold ed_verify. assert (Es : big_enc hsum = le_fixed 32 hsum) by (apply big_enc_small; lia). rewrite Es.
    assert (Eo : of_le (le_fixed 32 hsum) = hsum) by (apply of_le_le_fixed_small; rewrite pow256_32; lia).
    rewrite top_bits_conv by (first [apply le_fixed_length|rewrite Eo; lia]). cbn [Z.eqb negb].
    destruct (el_coord C D LD _ Cy) as [Hx Hy].
    assert (Ep : point_enc D sY = ge_bytes sY) by (apply point_enc_canon; [apply (el_p C D LD)|exact Hx|exact Hy]).
    assert (Ed : ed_dec D (point_enc D sY) = Some sY) by (rewrite Ep; apply (el_dec C D LD); exact Cy). rewrite Ed.
    assert (Er : big_enc (of_le (ge_bytes sR)) = ge_bytes sR) by (rewrite <- enc_to_big_le; apply C34_bytes_roundtrip, ge_bytes_len). rewrite Er.
    change (of_le (S5 (ge_bytes sR ++ point_enc D sY ++ to_be m)) mod n) with hlam. rewrite Eo, neg_sY.
    pose proof hlam_range. rewrite gmul_mul by (exact L || lia). rewrite <- gmul_smul by (exact L || lia). rewrite gmul_add by exact L.
    assert (E : gmul (hlam * - zsum N y + hsum) = sR); [|rewrite E; apply bytes_eqb_refl].
    unfold SignHonest.sR. apply gmul_eqm. rewrite hsum_eq, Zplus_mod_idemp_r. f_equal. ring.
  Qed.

  Lemma exec4 i s : (i < N)%nat -> sfilled K3 i (s K3) ->
    sg_final C D S5 (sst 3 i s) = Ret (okd (sig_json hdata), sst 4 i s).
  Proof.
    intros Hi [L1 F1]. unfold sg_final. pose proof (cl_n_range C L) as RN. pose proof b253 as B6.
    match goal with |- context [sf_loop C _ _ ?q] => set (p1 := q) end.
    change (sp_si p1) with (Some (le_fixed 32 (hs i))). rewrite (sf_loop_ok C B S5 L hs); [|apply hs_range|].
    - cbn [obind deref]. change (sp_i p1) with i. change (sp_ids p1) with ids. rewrite Hids. fold (others i N). rewrite (zsum_others hs i N Hi).
      change (zsum N hs mod n) with hsum. cbn [deref obind]. change (sp_r p1) with (Some (of_le (ge_bytes sR))). cbn [deref obind].
      match goal with |- context [sv_ed (sp_save ?q)] => change (sv_ed (sp_save q)) with (Some sY) end. cbn [deref obind sg_M]. change (sp_m p1) with m.
      rewrite enc_to_big_le. pose proof hsum_range. rewrite of_le_le_fixed_small by (rewrite pow256_32; lia). rewrite verify_ok. reflexivity.
    - intros j Hj Hji. change (sp_ids p1) with ids in Hj. rewrite Hids in Hj. apply in_seq in Hj. assert (Hj' : (j < N)%nat) by lia.
      exists (hmsg K3 j i). split; [apply F1; exact Hj'|]. split; [apply parse_k3|apply hs_range].
  Qed.
End Exec.
