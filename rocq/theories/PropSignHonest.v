(** PropSignHonest.v -- C18: honest signing over an asynchronous network always succeeds, everywhere with the same valid signature. *)
From Verif Require Import Base BigInt HashFrame Text Wire Messages PartyID Curve Json Save Keygen KeygenNet KeygenHonest KeygenWorld NumTh Paillier RangeProofs RangeThm PropRange Ckd PropCkd Subset PropSubset Onsign OnsignEnc OnsignHist PropSign SignEx PropSignEx SignHonest SignExec SignWorld.
From Coq Require Import Sorted.

(** ** Specification *)
(** The saved key data of party i of N after key generation and SaveChainCodes: its own share x_i, everybody's public
    share x_j * G, the group key, everybody's chain code and id. *)
Record keyshare (C : curve) (N : nat) (x cc : nat -> Z) (ks : list Z) (i : nat) (s : save) : Prop := {
  ksh_priv : sv_priv s = Some (x i);
  ksh_pub : sv_pub s = map (fun j => Some (gmul C (x j))) (seq 0 N);
  ksh_ed : sv_ed s = Some (gmul C (zsum N x));
  ksh_cc : sv_chain s = Some (map (fun j => Some (cc j)) (seq 0 N));
  ksh_ks : sv_ks s = map Some ks }.
(** the Pedersen record of party i as numbers *)
Definition rec_ped (payload : bytes) (i : nat) : ped :=
  {| pe_n := of_be (bytes_at payload (1376 + 673 * i + 289) 128); pe_s := of_be (bytes_at payload (1376 + 673 * i + 417) 128);
     pe_t := of_be (bytes_at payload (1376 + 673 * i + 545) 128) |}.

(** What all N parties pass to NewSignLocalParty: the ids used at key generation, the same hex message, their own saved
    key data, the same refresh payload with usable keys, the same non-hardened path whose child keys exist. *)
Record sign_args (C : curve) (HM : bytes -> bytes -> bytes) (N : nat) (pids : list bytes) (msg : bytes) (kd : nat -> bytes)
    (rf path : bytes) (x cc : nat -> Z) (ks : list Z) (M payload : bytes) (P : nat -> point) : Prop := {
  sa_ks : length ks = N /\ StronglySorted Z.lt ks /\ Forall (fun k => 0 <= k) ks;
  sa_ids : exists ids, make_ids (Z.of_nat N) pids = Ret ids /\ signers ids ks;
  sa_keys : forall i, (i < N)%nat -> exists kb s, b64_dec (kd i) = Some kb /\ save_dec C kb = Some s /\ keyshare C N x cc ks i s;
  sa_x : forall i, (i < N)%nat -> 0 <= x i < 2 ^ 256;
  sa_msg : hex_dec msg = Some M;
  sa_path : length (split slash path) = 5%nat /\ ~ In quote path;
  (* the child public share of every party *)
  sa_child : forall j, (j < N)%nat -> derive_pub C HM (gmul C (x j)) (gmul C (zsum N x)) (to_be (cc j)) path = Ret (P j);
  sa_refresh : hex_dec rf = Some payload /\ (1376 + 673 * N <= length payload)%nat;
  sa_recs : forall j, (j < N)%nat -> 2 < record_N payload j /\ c_n C <= record_N payload j /\ ped_ok (rec_ped payload j) }.

(** the group's child public key: the sum of the child public shares *)
Definition group_pub (C : curve) (N : nat) (P : nat -> point) : point := fold_right (c_add C) (c_id C) (map P (seq 0 N)).

(** all sessions freshly created, nothing sent yet *)
Definition v_start (C : curve) (HM : bytes -> bytes -> bytes) (spare : bytes -> bytes) (N : nat) pids msg (kd : nat -> bytes) rf path (w : sworld) : Prop :=
  (forall i, (i < N)%nat -> sg_new C HM spare (Z.of_nat i) (Z.of_nat N) pids msg (kd i) rf path = Ret (ok0, Some (v_p w i))) /\
  (forall r i, v_out w r i = None) /\ (forall k i j, v_net w k i j = None).

(** ** Proof *)
Lemma of_be_lt_len b k : (length b <= k)%nat -> 0 <= of_be b < 256 ^ Z.of_nat k.
Proof. intro H. pose proof (of_be_range b) as R. pose proof (Z.pow_le_mono_r 256 (Z.of_nat (length b)) (Z.of_nat k) ltac:(lia) ltac:(lia)). lia. Qed.
Lemma bytes_at_le l a k : (length (bytes_at l a k) <= k)%nat.
Proof. unfold bytes_at. rewrite firstn_length. lia. Qed.

Section C18.
  Variables (C : curve) (D : edlib) (B S5 : bytes -> bytes) (HM : bytes -> bytes -> bytes) (spare : bytes -> bytes).
  Hypothesis L : curve_laws C.
  Hypothesis LD : ed_laws C D.
  Variables (N : nat) (pids : list bytes) (msg : bytes) (kd : nat -> bytes) (rf path : bytes).
  Variables (x cc : nat -> Z) (ks : list Z) (M payload : bytes) (P : nat -> point).
  Hypothesis A : sign_args C HM N pids msg kd rf path x cc ks M payload P.
  Notation G := (gmul C).
  Notation n := (c_n C).
  Notation new i := (sg_new C HM spare (Z.of_nat i) (Z.of_nat N) pids msg (kd i) rf path).
  Let ded := G (zsum N x).
  Definition child_y (j : nat) : Z :=
    match derive_priv C HM (x j) (G (x j)) (G (zsum N x)) (to_be (cc j)) path with Ret (Some k) => of_be k | _ => 0 end.
  Notation y := child_y.

  Lemma child_ok j : (j < N)%nat -> exists k, derive_priv C HM (x j) (G (x j)) (G (zsum N x)) (to_be (cc j)) path = Ret (Some k) /\
    y j = of_be k /\ 0 <= y j < n /\ P j = G (y j).
  Proof.
    intro Hj. destruct A as [_ _ _ Ax _ [_ Aq] Ac _ _].
    destruct (C22_priv_pub_agree C L HM (x j) (G (zsum N x)) (to_be (cc j)) path (Ax j Hj) (gmul_on C L _) Aq) as [P1 P2].
    destruct (P2 _ (Ac j Hj)) as (k & Ek & EP). exists k. destruct (P1 k Ek) as (_ & R & _).
    unfold child_y. rewrite Ek. auto.
  Qed.

  Lemma derive_pubs_ok : forall a k, (forall j, (a <= j < a + k)%nat -> derive_pub C HM (G (x j)) (G (zsum N x)) (to_be (cc j)) path = Ret (P j)) ->
    derive_pubs C HM (G (zsum N x)) (map (fun j => Some (cc j)) (seq a k)) path (map (fun j => Some (G (x j))) (seq a k)) = Ret (map (fun j => Some (P j)) (seq a k)).
  Proof.
    clear A. intros a k; revert a; induction k as [|k IH]; intros a H; [reflexivity|].
    cbn [seq map derive_pubs obind deref]. rewrite (H a) by lia. cbn [obind]. rewrite IH by (intros; apply H; lia). reflexivity.
  Qed.

  Lemma new_ok i : (i < N)%nat -> exists ids sv, make_ids (Z.of_nat N) pids = Ret ids /\ length ids = N /\
    signer_data C N y (record_N payload) (rec_ped payload) i sv /\
    new i = Ret (ok0, Some {| sp_i := i; sp_ids := ids; sp_save := sv;
             sp_r11 := repeat [] N; sp_r12 := repeat [] N; sp_r2 := repeat [] N; sp_r3 := repeat [] N;
             sp_out12 := repeat [] N; sp_out2 := repeat [] N;
             sp_k := None; sp_rho := None; sp_K := repeat None N; sp_m := of_be M;
             sp_si := None; sp_r := None; sp_ssid := []; sp_number := 0;
             sp_data := {| sg_sig := []; sg_R := []; sg_S := []; sg_M := [] |} |}).
  Proof.
    intro Hi. destruct A as [(Lk & Sk & Nk) (ids & Mi & Sg) Ak Ax Am [Ap Aq] Ac [Ar Al] Arec].
    destruct (Ak i Hi) as (kb & s & Eb & Es & [K1 K2 K3 K4 K5]).
    assert (LI : length ids = N) by exact (make_ids_length _ _ _ Mi).
    destruct (child_ok i Hi) as (ch & Ech & Ey & _ & _).
    pose proof (derive_pubs_ok 0 N ltac:(intros; apply Ac; lia)) as Dp.
    destruct (nth_error ids i) as [self|] eqn:Ei; [|apply nth_error_None in Ei; lia].
    exists ids. eexists. split; [exact Mi|]. split; [exact LI|]. split.
    2:{ unfold sg_new. rewrite Mi. cbn [obind]. rewrite idx_nat, Ei. cbn [obind]. rewrite Eb, Es, Ap. cbn [Nat.eqb negb].
        rewrite K4. rewrite idx_nat, (nth_error_map_seq (fun j => Some (cc j))) by exact Hi. cbn [obind deref].
        rewrite K2, idx_nat, (nth_error_map_seq (fun j => Some (G (x j)))) by exact Hi. cbn [obind deref].
        rewrite K1, K3. cbn [obind deref]. rewrite Ech. cbn [obind]. rewrite Dp. cbn [obind]. rewrite Ar.
        rewrite Nat2Z.id. rewrite (refresh_recs_ok payload (spare rf) 0 N) by lia. cbn [obind].
        rewrite (C21_full_set _ ks ids).
        - cbn [obind]. rewrite Am. rewrite (make_ids_index _ _ _ _ _ Mi Ei), Nat2Z.id. reflexivity.
        - constructor; cbn; auto; rewrite map_length, seq_length; auto.
        - exact Sg. }
    constructor; cbn.
    - rewrite Ey. reflexivity.
    - apply map_ext_in. intros j Hj. apply in_seq in Hj. destruct (child_ok j ltac:(lia)) as (_ & _ & _ & _ & ->). reflexivity.
    - reflexivity.
    - reflexivity.
  Qed.

  (** creating the sessions succeeds *)
  Theorem C18_new_succeeds i : (i < N)%nat -> exists p, new i = Ret (ok0, Some p).
  Proof. intro Hi. destruct (new_ok i Hi) as (ids & sv & _ & _ & _ & E). eexists. exact E. Qed.

  Lemma params i : (i < N)%nat -> params_ok C y (record_N payload) (rec_ped payload) i.
  Proof.
    intro Hi. destruct A as [_ _ _ _ _ _ _ _ Ar]. destruct (Ar i Hi) as (R1 & R2 & R3).
    assert (Q1 : 256 ^ Z.of_nat 256 < 2 ^ 4096) by reflexivity. assert (Q2 : 256 ^ Z.of_nat 128 < 2 ^ 4096) by reflexivity.
    constructor.
    - destruct (child_ok i Hi) as (_ & _ & _ & R & _). exact R.
    - repeat split; auto. unfold bits. pose proof (of_be_lt_len _ 256 (bytes_at_le payload (1376 + 673 * i + 33) 256)). unfold record_N in *.
      rewrite Z.abs_eq by lia. eapply Z.lt_trans; [apply H|exact Q1].
    - split; [exact R3|]. unfold bits, rec_ped; cbn [pe_n]. pose proof (of_be_lt_len _ 128 (bytes_at_le payload (1376 + 673 * i + 289) 128)).
      rewrite Z.abs_eq by lia. eapply Z.lt_trans; [apply H|exact Q2].
  Qed.

  Variables (rnd : nat -> s1_rand) (d2 : nat -> nat -> pdraws) (zz : nat -> nat -> Z).
  Hypothesis HR : forall i, (i < N)%nat -> rand_ok C D B N (record_N payload) (rec_ped payload) rnd d2 zz i.
  Variable w0 : sworld.
  Hypothesis W0 : v_start C HM spare N pids msg kd rf path w0.
  Notation steps := (v_steps C D B S5 N rnd d2 zz).
  Notation enabled := (v_enabled C D B S5 N).
  Notation run := (v_run C D B S5 rnd d2 zz).
  Let sv0 i := sp_save (v_p w0 i).

  Lemma start_data : forall i, (i < N)%nat -> signer_data C N y (record_N payload) (rec_ped payload) i (sv0 i).
  Proof.
    intros i Hi. destruct W0 as [W1 _]. destruct (new_ok i Hi) as (ids & sv & _ & _ & Sd & E). specialize (W1 i Hi). rewrite E in W1.
    unfold sv0. assert (Q : v_p w0 i = {| sp_i := i; sp_ids := ids; sp_save := sv;
             sp_r11 := repeat [] N; sp_r12 := repeat [] N; sp_r2 := repeat [] N; sp_r3 := repeat [] N;
             sp_out12 := repeat [] N; sp_out2 := repeat [] N;
             sp_k := None; sp_rho := None; sp_K := repeat None N; sp_m := of_be M;
             sp_si := None; sp_r := None; sp_ssid := []; sp_number := 0;
             sp_data := {| sg_sig := []; sg_R := []; sg_S := []; sg_M := [] |} |}) by congruence.
    rewrite Q. exact Sd.
  Qed.
  Lemma start_inv : exists ids, length ids = N /\
    sinv C D B S5 N ids y (record_N payload) (rec_ped payload) (of_be M) sv0 rnd d2 w0 (fun _ => 0%nat) (fun _ _ => repeat [] N).
  Proof.
    destruct W0 as (W1 & W2 & W3). destruct A as [_ (ids & Mi & _) _ _ _ _ _ _ _].
    assert (LI : length ids = N) by exact (make_ids_length _ _ _ Mi).
    exists ids. split; [exact LI|]. constructor.
    - intros; lia.
    - intros i Hi. destruct (new_ok i Hi) as (ids' & sv & Mi' & _ & _ & E). rewrite Mi in Mi'. injection Mi' as <-. specialize (W1 i Hi). rewrite E in W1.
      assert (Q : v_p w0 i = {| sp_i := i; sp_ids := ids; sp_save := sv;
             sp_r11 := repeat [] N; sp_r12 := repeat [] N; sp_r2 := repeat [] N; sp_r3 := repeat [] N;
             sp_out12 := repeat [] N; sp_out2 := repeat [] N;
             sp_k := None; sp_rho := None; sp_K := repeat None N; sp_m := of_be M;
             sp_si := None; sp_r := None; sp_ssid := []; sp_number := 0;
             sp_data := {| sg_sig := []; sg_R := []; sg_S := []; sg_M := [] |} |}) by congruence.
      unfold sst, sv0. rewrite Q. reflexivity.
    - intros. apply repeat_length.
    - intros k i j Hi Hj. left. rewrite nth_error_repeat by exact Hj. reflexivity.
    - intros k i Hi Hk. destruct k; cbn in Hk; lia.
    - intros k i j Hi Hj Hk. lia.
    - intros r i Hi Hr. rewrite W2. destruct (Nat.leb_spec r 0); [lia|reflexivity].
    - intros k i j v Hi Hj Hv. rewrite W3 in Hv. discriminate.
    - intros k i j Hi Hj _ Hk. destruct k; cbn in Hk; lia.
  Qed.

  Lemma steps_inv ids w w' pc s : length ids = N ->
    sinv C D B S5 N ids y (record_N payload) (rec_ped payload) (of_be M) sv0 rnd d2 w pc s -> steps w w' ->
    exists pc' s', sinv C D B S5 N ids y (record_N payload) (rec_ped payload) (of_be M) sv0 rnd d2 w' pc' s'.
  Proof.
    intros LI I St. revert pc s I. induction St as [w|w e res w' w'' En Er St IH]; intros pc s I; [eauto|].
    destruct (inv_step C D B S5 L LD N ids LI y (record_N payload) (rec_ped payload) (of_be M) sv0 rnd d2 zz start_data params HR w pc s e I En) as (res' & w1 & pc' & s' & Er' & I' & _).
    assert (w1 = w') by congruence. subst w1. exact (IH _ _ I').
  Qed.
  Lemma reach_inv w : steps w0 w -> exists ids pc s, length ids = N /\
    sinv C D B S5 N ids y (record_N payload) (rec_ped payload) (of_be M) sv0 rnd d2 w pc s.
  Proof.
    intro St. destruct start_inv as (ids & LI & I). destruct (steps_inv ids w0 w _ _ LI I St) as (pc & s & I').
    exists ids, pc, s. auto.
  Qed.

  (** in every reachable situation, every call a party may make returns Ok = true (and none panics) *)
  Theorem C18_every_call_succeeds w e : steps w0 w -> enabled e w -> exists res w', run e w = Ret (res, w') /\ r_ok res = true.
  Proof.
    intros St En. destruct (reach_inv w St) as (ids & pc & s & LI & I).
    destruct (inv_step C D B S5 L LD N ids LI y (record_N payload) (rec_ped payload) (of_be M) sv0 rnd d2 zz start_data params HR w pc s e I En) as (res & w' & _ & _ & Er & _ & Ok).
    eauto.
  Qed.

  Lemma group_pub_eq : group_pub C N P = sY C N y.
  Proof.
    unfold group_pub, sY, zsum. assert (forall a k, (a + k <= N)%nat -> fold_right (c_add C) (c_id C) (map P (seq a k)) = G (fold_right Z.add 0 (map y (seq a k)))) as H; [|apply H; lia].
    intros a k; revert a; induction k as [|k IH]; intros a Ha; cbn [seq map fold_right]; [symmetry; apply (gmul_0 C L)|].
    rewrite IH by lia. destruct (child_ok a ltac:(lia)) as (_ & _ & _ & _ & ->). apply (gmul_add C L).
  Qed.

  (** whatever the order and repetition of deliveries: every party that finishes returns the same signature data, whose
      64-byte signature is a valid Ed25519 signature of the message bytes under the child group key *)
  Theorem C18_same_signature : exists d, forall w, steps w0 w ->
    (forall i out, (i < N)%nat -> v_out w 4 i = Some out -> out = sig_json d) /\
    ed25519_valid C D S5 (point_enc D (group_pub C N P)) (sg_M d) (sg_sig d) /\ sg_M d = strip0 M /\
    of_be (sg_R d) = of_le (firstn 32 (sg_sig d)) /\ of_be (sg_S d) = of_le (skipn 32 (sg_sig d)).
  Proof.
    exists (hdata C D S5 N y (of_be M) rnd). intros w St. destruct (reach_inv w St) as (ids & pc & s & LI & I).
    pose proof (verify_ok C D B S5 L LD N ids LI y (record_N payload) (rec_ped payload) (of_be M) sv0 rnd d2 zz start_data params HR) as V.
    pose proof (cl_n_range C L) as RN. assert (Q2 : 2 ^ 253 < 2 ^ 256) by reflexivity.
    assert (RS : 0 <= hsum C D S5 N y (of_be M) rnd < n) by (apply Z.mod_pos_bound; lia).
    assert (Es : big_enc (hsum C D S5 N y (of_be M) rnd) = le_fixed 32 (hsum C D S5 N y (of_be M) rnd)) by (apply big_enc_small; lia).
    assert (RR : 0 <= of_le (ge_bytes (sR C N rnd)) < 2 ^ 256).
    { pose proof (of_le_range (ge_bytes (sR C N rnd))) as R. assert (Q : length (ge_bytes (sR C N rnd)) = 32%nat) by apply ge_bytes_len.
      rewrite Q in R. rewrite pow256_32 in R. exact R. }
    split; [|split; [|split]].
    - intros i out Hi Ho. rewrite (si_out _ _ _ _ _ _ _ _ _ _ _ _ _ _ _ _ I 4 i Hi ltac:(lia)) in Ho.
      destruct (4 <=? pc i)%nat; [|discriminate]. cbn [hout] in Ho. congruence.
    - rewrite group_pub_eq. pose proof (ed_verify_valid C D B S5 L LD _ _ _ _ V) as Q. unfold hdata; cbn [sg_sig sg_M]. 
      rewrite <- Es. exact Q.
    - cbn. apply to_be_of_be.
    - unfold hdata; cbn [sg_sig sg_R sg_S]. rewrite (firstn_app_len 32 _ _ (big_enc_len _)), (skipn_app_len 32 _ _ (big_enc_len _)).
      split.
      + rewrite of_be_to_be_nonneg by lia. symmetry. apply (C34_scalar_roundtrip _ RR).
      + rewrite of_be_to_be_nonneg by lia. symmetry. apply of_le_le_fixed_small. rewrite pow256_32. lia.
  Qed.
  Theorem C18_no_deadlock w : (0 < N)%nat -> steps w0 w -> exists w', steps w w' /\ forall i, (i < N)%nat -> exists out, v_out w' 4 i = Some out.
  Proof.
    intros HN St. destruct (reach_inv w St) as (ids & pc & s & LI & I).
    destruct (inv_complete C D B S5 L LD N ids LI y (record_N payload) (rec_ped payload) (of_be M) sv0 rnd d2 zz start_data params HR w pc s I HN) as (w' & St' & O).
    exists w'. split; [exact St'|]. intros i Hi. eexists. exact (O i Hi).
  Qed.
End C18.

(** ** Non-vacuity: two parties on the 88-point group (order 11 subgroup), Paillier moduli 143 and 187 *)
Definition xe (i : nat) : Z := nth i [5; 9] 0.
Definition cce (i : nat) : Z := nth i [3; 7] 0.
Definition kde (i : nat) : bytes := b64_enc (save_enc (se_save (xe i))).
Definition rnde (i : nat) : s1_rand := nth i [{| s1_k := 8; s1_rho := 5; s1_d := se_draws |}; {| s1_k := 4; s1_rho := 6; s1_d := se_draws |}] {| s1_k := 8; s1_rho := 5; s1_d := se_draws |}.
Definition paye : bytes := repeat (zb 0) 1376 ++ se_rec 143 ++ se_rec 187.
Definition pube (x c : Z) : point := match derive_pub toy2 toy_hmac (gmul toy2 x) (gmul toy2 14) (to_be c) se_path with Ret P => P | Panic => (0, 0) end.
Definition Pe0 : point := Eval vm_compute in pube 5 3.
Definition Pe1 : point := Eval vm_compute in pube 9 7.
Definition Pe (i : nat) : point := nth i [Pe0; Pe1] (0, 0).
Lemma two_cases (Q : nat -> Prop) : Q 0%nat -> Q 1%nat -> forall i, (i < 2)%nat -> Q i.
Proof. intros H0 H1 i Hi. destruct i as [|[|i]]; [exact H0|exact H1|lia]. Qed.
Definition e_ids : list party_id := Eval vm_compute in match make_ids 2 [str "21"; str "22"] with Ret l => l | Panic => [] end.
Lemma e_ids_ok : make_ids 2 [str "21"; str "22"] = Ret e_ids. Proof. vm_cast_no_check (eq_refl (Ret e_ids)). Qed.
Lemma e_dec0 : save_dec toy2 (save_enc (se_save 5)) = Some (se_save 5). Proof. vm_cast_no_check (eq_refl (Some (se_save 5))). Qed.
Lemma e_dec1 : save_dec toy2 (save_enc (se_save 9)) = Some (se_save 9). Proof. vm_cast_no_check (eq_refl (Some (se_save 9))). Qed.
Lemma e_P0 : derive_pub toy2 toy_hmac (gmul toy2 5) (gmul toy2 14) (to_be 3) se_path = Ret Pe0. Proof. vm_cast_no_check (eq_refl (Ret Pe0)). Qed.
Lemma e_P1 : derive_pub toy2 toy_hmac (gmul toy2 9) (gmul toy2 14) (to_be 7) se_path = Ret Pe1. Proof. vm_cast_no_check (eq_refl (Ret Pe1)). Qed.
Lemma e_N0 : record_N paye 0 = 143. Proof. vm_cast_no_check (eq_refl 143). Qed.
Lemma e_N1 : record_N paye 1 = 187. Proof. vm_cast_no_check (eq_refl 187). Qed.
Lemma e_ped0 : rec_ped paye 0 = {| pe_n := 323; pe_s := 4; pe_t := 9 |}. Proof. vm_cast_no_check (eq_refl {| pe_n := 323; pe_s := 4; pe_t := 9 |}). Qed.
Lemma e_ped1 : rec_ped paye 1 = {| pe_n := 323; pe_s := 4; pe_t := 9 |}. Proof. vm_cast_no_check (eq_refl {| pe_n := 323; pe_s := 4; pe_t := 9 |}). Qed.
Lemma e_pay_len : (length paye =? 1376 + 673 * 2)%nat = true. Proof. vm_cast_no_check (eq_refl true). Qed.
Lemma e_path : (length (split slash se_path) =? 5)%nat = true /\ existsb (fun c => bz c =? bz quote) se_path = false.
Proof. split; reflexivity. Qed.
Lemma e_zsum : zsum 2 xe = 14. Proof. reflexivity. Qed.
Lemma e_args : sign_args toy2 toy_hmac 2 [str "21"; str "22"] se_msg kde se_refresh se_path xe cce [21; 22] (zb 0 :: [zb 65]) paye Pe.
Proof.
  constructor.
  - split; [reflexivity|]. split; repeat constructor; lia.
  - exists e_ids. split; [exact e_ids_ok|]. split; [reflexivity|]. split; repeat constructor; lia.
  - apply two_cases.
    + exists (save_enc (se_save 5)), (se_save 5). split; [apply b64_roundtrip|]. split; [exact e_dec0|]. constructor; reflexivity.
    + exists (save_enc (se_save 9)), (se_save 9). split; [apply b64_roundtrip|]. split; [exact e_dec1|]. constructor; reflexivity.
  - apply two_cases; (split; [discriminate|reflexivity]).
  - reflexivity.
  - destruct e_path as [E1 E2]. split; [apply Nat.eqb_eq; exact E1|]. intro I.
    assert (Q : existsb (fun c => bz c =? bz quote) se_path = true) by (apply existsb_exists; exists quote; split; [exact I|apply Z.eqb_refl]).
    congruence.
  - rewrite e_zsum. apply two_cases; [exact e_P0|exact e_P1].
  - split; [apply hex_roundtrip|]. pose proof e_pay_len as E. apply Nat.eqb_eq in E. rewrite E. lia.
  - apply two_cases; rewrite ?e_N0, ?e_N1, ?e_ped0, ?e_ped1; (split; [reflexivity|]; split; [vm_compute; discriminate|]); (split; [reflexivity|split; reflexivity]).
Qed.
Definition new_some {A} (o : outcome (option A)) : bool := match o with Ret None => false | _ => true end.
Lemma new_some_ok {A} (o : outcome (option A)) : new_some o = true -> o <> Ret None. Proof. intros E ->. discriminate. Qed.
Lemma e_draws : draws_fit toy2 ex_draws.
Proof.
  constructor.
  - vm_compute. discriminate.
  - reflexivity.
  - reflexivity.
  - apply Forall_forall. intros b Hb. cbn [dr_salts ex_draws] in Hb. apply in_map_iff in Hb. destruct Hb as (i & <- & _). unfold short. rewrite repeat_length. vm_compute. discriminate.
Qed.
Lemma e_rand : forall i, (i < 2)%nat -> rand_ok toy2 toyD ex_hash 2 (record_N paye) (rec_ped paye) rnde (fun _ => se_draws) (fun _ => se_z) i.
Proof.
  apply two_cases; constructor.
  1,6: split; [discriminate|reflexivity].
  1,5: rewrite ?e_N0, ?e_N1; split; [split; [discriminate|reflexivity]|reflexivity].
  1,4: apply two_cases; (split; [exact e_draws|apply new_some_ok; unfold he_new, hK; rewrite ?e_N0, ?e_N1, ?e_ped0, ?e_ped1; vm_cast_no_check (eq_refl true)]).
  1,3: apply two_cases; (split; [exact e_draws|apply new_some_ok; unfold hl_new, hK; rewrite ?e_N0, ?e_N1, ?e_ped0, ?e_ped1; vm_cast_no_check (eq_refl true)]).
  all: intro j; discriminate.
Qed.
Definition we : sworld := {| v_p := fun i => nth i [se_party0; se_party1] se_party0; v_out := fun _ _ => None; v_net := fun _ _ _ => None |}.
Lemma e_kde0 : kde 0 = b64_enc (save_enc (se_save 5)). Proof. reflexivity. Qed.
Lemma e_kde1 : kde 1 = b64_enc (save_enc (se_save 9)). Proof. reflexivity. Qed.
Lemma e_z0 : Z.of_nat 0 = 0. Proof. reflexivity. Qed.
Lemma e_z1 : Z.of_nat 1 = 1. Proof. reflexivity. Qed.
Lemma e_z2 : Z.of_nat 2 = 2. Proof. reflexivity. Qed.
Lemma e_se_new i x m r : se_new i x m r = sg_new toy2 toy_hmac go121_spare i 2 [str "21"; str "22"] m (b64_enc (save_enc (se_save x))) r se_path.
Proof. reflexivity. Qed.
Lemma e_w0 : v_p we 0 = se_party0. Proof. reflexivity. Qed.
Lemma e_w1 : v_p we 1 = se_party1. Proof. reflexivity. Qed.
Lemma e_new0 : sg_new toy2 toy_hmac go121_spare (Z.of_nat 0) (Z.of_nat 2) [str "21"; str "22"] se_msg (kde 0) se_refresh se_path = Ret (ok0, Some (v_p we 0)).
Proof. rewrite e_kde0, e_w0, e_z0, e_z2, <- e_se_new. apply se_party0_new. Qed.
Lemma e_new1 : sg_new toy2 toy_hmac go121_spare (Z.of_nat 1) (Z.of_nat 2) [str "21"; str "22"] se_msg (kde 1) se_refresh se_path = Ret (ok0, Some (v_p we 1)).
Proof. rewrite e_kde1, e_w1, e_z1, e_z2, <- e_se_new. apply se_party1_new. Qed.
Lemma e_start : v_start toy2 toy_hmac go121_spare 2 [str "21"; str "22"] se_msg kde se_refresh se_path we.
Proof.
  split; [|split; reflexivity]. apply two_cases; [exact e_new0|exact e_new1].
Qed.
(** all hypotheses are met, so the two parties do finish, with one valid signature of the bytes 00 41 (as 41, see C19) *)
Theorem C18_example : curve_laws toy2 /\ ed_laws toy2 toyD /\
  sign_args toy2 toy_hmac 2 [str "21"; str "22"] se_msg kde se_refresh se_path xe cce [21; 22] [zb 0; zb 65] paye Pe /\
  (forall i, (i < 2)%nat -> rand_ok toy2 toyD ex_hash 2 (record_N paye) (rec_ped paye) rnde (fun _ => se_draws) (fun _ => se_z) i) /\
  v_start toy2 toy_hmac go121_spare 2 [str "21"; str "22"] se_msg kde se_refresh se_path we /\
  exists w' d, v_steps toy2 toyD ex_hash se_hash64 2 rnde (fun _ => se_draws) (fun _ => se_z) we w' /\
    v_out w' 4 0 = Some (sig_json d) /\ v_out w' 4 1 = Some (sig_json d) /\
    ed25519_valid toy2 toyD se_hash64 (point_enc toyD (group_pub toy2 2 Pe)) [zb 65] (sg_sig d).
Proof.
  split; [exact toy2_laws|]. split; [exact toyD_laws|]. split; [exact e_args|]. split; [exact e_rand|]. split; [exact e_start|].
  destruct (C18_no_deadlock toy2 toyD ex_hash se_hash64 toy_hmac go121_spare toy2_laws toyD_laws 2 _ _ _ _ _ _ _ _ _ _ _ e_args rnde _ _ e_rand we e_start we ltac:(lia) (vs_refl _ _ _ _ _ _ _ _ _)) as (w' & St & O).
  destruct (C18_same_signature toy2 toyD ex_hash se_hash64 toy_hmac go121_spare toy2_laws toyD_laws 2 _ _ _ _ _ _ _ _ _ _ _ e_args rnde _ _ e_rand we e_start) as (d & Sd).
  exists w', d. split; [exact St|]. destruct (Sd w' St) as (S1 & S2 & S3 & _).
  split; [|split].
  - destruct (O 0%nat ltac:(lia)) as (o & Eo). rewrite Eo, (S1 0%nat o ltac:(lia) Eo). reflexivity.
  - destruct (O 1%nat ltac:(lia)) as (o & Eo). rewrite Eo, (S1 1%nat o ltac:(lia) Eo). reflexivity.
  - rewrite S3 in S2. exact S2.
Qed.
