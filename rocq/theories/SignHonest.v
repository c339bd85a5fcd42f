(** SignHonest.v -- the states of an honest signing session and the proof that each round takes one to the next. *)
From Verif Require Import Base BigInt HashFrame Text Wire Messages PartyID Curve Json Save Keygen KeygenNet KeygenHonest KeygenWorld NumTh Euler Carmichael Paillier RangeProofs RangeThm PropRange Ckd Subset Onsign OnsignEnc OnsignHist PropSign.
From Coq Require Import Znumtheory.

(** ** Sizes *)
Definition short (b : bytes) : Prop := Z.of_nat (length b) <= 2 ^ 30.
Lemma short_tiny b : short b -> tiny b.
Proof. unfold short, tiny. intro. assert (2 ^ 30 <= 2 ^ 40) by (vm_compute; discriminate). lia. Qed.
Definition bits (z b : Z) : Prop := Z.abs z < 2 ^ b.
Lemma bits_mono z a b : bits z a -> a <= b -> bits z b.
Proof. unfold bits. intros H L. pose proof (Z.pow_le_mono_r 2 a b ltac:(lia) L). lia. Qed.
Lemma bits_mul x y a b : 0 <= a -> 0 <= b -> bits x a -> bits y b -> bits (x * y) (a + b).
Proof. unfold bits. intros Ha Hb Hx Hy. rewrite Z.abs_mul, Z.pow_add_r by lia. nia. Qed.
Lemma bits_add x y b : 0 <= b -> bits x b -> bits y b -> bits (x + y) (b + 1).
Proof. unfold bits. intros Hb Hx Hy. rewrite Z.pow_add_r by lia. lia. Qed.
Lemma bits_le x y b : 0 <= x <= y -> bits y b -> bits x b.
Proof. unfold bits. lia. Qed.
Lemma pow256_2 k : 256 ^ Z.of_nat k = 2 ^ (8 * Z.of_nat k).
Proof. change 256 with (2 ^ 8). rewrite <- Z.pow_mul_r by lia. reflexivity. Qed.
Lemma to_be_bits z b : bits z b -> b <= 2 ^ 20 -> short (to_be z).
Proof.
  intros H Hb. unfold short. assert (L : (length (to_be z) <= Z.to_nat (2 ^ 20))%nat).
  { apply to_be_length. rewrite pow256_2. unfold bits in H.
    assert (2 ^ b <= 2 ^ (8 * Z.of_nat (Z.to_nat (2 ^ 20)))) by (apply Z.pow_le_mono_r; [lia|]; rewrite Z2Nat.id; lia). lia. }
  apply Nat2Z.inj_le in L. rewrite Z2Nat.id in L by lia. assert (2 ^ 20 <= 2 ^ 30) by (vm_compute; discriminate). lia.
Qed.
Lemma dec_aux_len f z acc : (length (dec_aux f z acc) <= f + length acc)%nat.
Proof.
  revert z acc; induction f as [|f IH]; intros z acc; cbn [dec_aux]; [lia|]. destruct (z / 10 <=? 0); [cbn [length]; lia|].
  specialize (IH (z / 10) (hexchr (z mod 10) :: acc)). cbn [length] in IH. lia.
Qed.
Lemma ztok_bits z b : bits z b -> 0 <= b <= 2 ^ 20 -> short (ztok z).
Proof.
  intros H Hb. unfold short. assert (L : Z.of_nat (length (ztok z)) <= b + 2).
  { assert (G : forall y, 0 <= y -> bits y b -> Z.of_nat (length (itoa y)) <= b + 1).
    { intros y Hy By. unfold itoa. match goal with |- context [dec_aux ?f ?a []] => pose proof (dec_aux_len f a []) as Q end. cbn [length] in Q.
      assert (LG : Z.log2 y <= b). { destruct (Z.eq_dec y 0) as [->|]; [cbn; lia|]. apply Z.lt_le_incl. apply Z.log2_lt_pow2; [lia|]. unfold bits in By. lia. }
      pose proof (Z.log2_nonneg y). lia. }
    unfold ztok. destruct (Z.ltb_spec z 0).
    - cbn [length]. assert (B' : bits (- z) b) by (unfold bits in *; lia). specialize (G (- z) ltac:(lia) B'). lia.
    - specialize (G z ltac:(lia) H). lia. }
  assert (2 ^ 20 + 2 <= 2 ^ 30) by (vm_compute; discriminate). lia.
Qed.
Lemma numch_ascii s : forallb is_numch s = true -> Forall (fun b => bz b < 128) s.
Proof.
  induction s as [|a s IH]; [constructor|]. cbn [forallb]. intro H. apply andb_prop in H. destruct H as [H1 H2].
  constructor; [|auto]. unfold is_numch, is_dig in H1. lia.
Qed.
Lemma ztok_utf8 z : utf8_valid (ztok z) = true.
Proof. apply utf8_ascii, numch_ascii, ztok_num. Qed.

Lemma encmsg_tiny m : Forall short [em_salt m; em_S m; em_A m; em_C m; em_z1 m; em_z2 m; em_z3 m] -> tiny (encmsg_enc m).
Proof.
  intro H. rewrite !Forall_cons_iff in H. destruct H as (H1 & H2 & H3 & H4 & H5 & H6 & H7 & _).
  unfold short in *. unfold tiny, encmsg_enc. rewrite !pb_enc_app, !app_length, !Nat2Z.inj_add.
  repeat match goal with |- context [length (pb_enc (fbytes ?k ?b))] => pose proof (pb_fbytes_len k b); generalize dependent (length (pb_enc (fbytes k b))); intros end.
  assert (2 ^ 30 * 7 + 140 <= 2 ^ 40) by (vm_compute; discriminate). lia.
Qed.
Lemma logmsg_tiny m : Forall short [lm_salt m; lm_S m; lm_A m; lm_Yx m; lm_Yy m; lm_D m; lm_z1 m; lm_z2 m; lm_z3 m] -> tiny (logmsg_enc m).
Proof.
  intro H. rewrite !Forall_cons_iff in H. destruct H as (H1 & H2 & H3 & H4 & H5 & H6 & H7 & H8 & H9 & _).
  unfold short in *. unfold tiny, logmsg_enc. rewrite !pb_enc_app, !app_length, !Nat2Z.inj_add.
  repeat match goal with |- context [length (pb_enc (fbytes ?k ?b))] => pose proof (pb_fbytes_len k b); generalize dependent (length (pb_enc (fbytes k b))); intros end.
  assert (2 ^ 30 * 9 + 180 <= 2 ^ 40) by (vm_compute; discriminate). lia.
Qed.

(** ** What is assumed of an honest run *)
Definition ped_some (pd : ped) : pedpk := {| pd_n := Some (pe_n pd); pd_s := Some (pe_s pd); pd_t := Some (pe_t pd) |}.
(** the data held by signer [i] of [N]: its share [y i], everyone's public shares, Paillier moduli and Pedersen keys *)
Record signer_data (C : curve) (N : nat) (y : nat -> Z) (NN : nat -> Z) (pdv : nat -> ped) (i : nat) (s : save) : Prop := {
  sd_priv : sv_priv s = Some (y i);
  sd_pub : sv_pub s = map (fun j => Some (gmul C (y j))) (seq 0 N);
  sd_pks : sv_pks s = map (fun j => Some (Some (NN j))) (seq 0 N);
  sd_peds : sv_peds s = map (fun j => Some (ped_some (pdv j))) (seq 0 N) }.
(** usable keys and shares *)
Record params_ok (C : curve) (y NN : nat -> Z) (pdv : nat -> ped) (i : nat) : Prop := {
  po_y : 0 <= y i < c_n C;
  po_N : 2 < NN i /\ c_n C <= NN i /\ bits (NN i) 4096;
  po_ped : ped_ok (pdv i) /\ bits (pe_n (pdv i)) 4096 }.
(** draws of one proof that lie in the ranges the code draws them from (the retry loops are separate) *)
Record draws_fit (C : curve) (d : pdraws) : Prop := {
  df_alpha : Z.abs (dr_alpha d) <= 2 ^ (3 * bitlen (c_n C) + 1) - c_n C * c_n C;
  df_mu : bits (dr_mu d) 8192; df_gamma : bits (dr_gamma d) 8192;
  df_salts : Forall short (dr_salts d) }.

Section Honest.
  Variables (C : curve) (D : edlib) (B S5 : bytes -> bytes).
  Hypothesis L : curve_laws C.
  Hypothesis LD : ed_laws C D.
  Notation n := (c_n C).
  Notation gmul := (gmul C).
  Variable N : nat.
  Variable ids : list party_id.
  Hypothesis Hids : length ids = N.
  Variables (y NN : nat -> Z) (pdv : nat -> ped) (m : Z) (sv0 : nat -> save).
  Variables (rnd : nat -> s1_rand) (d2 : nat -> nat -> pdraws) (zz : nat -> nat -> Z).

  Definition hk i := s1_k (rnd i).
  Definition hrho i := s1_rho (rnd i).
  Definition hK i : Z := match pal_encrypt (NN i) (hk i) (hrho i) with Some K => K | None => 0 end.
  Definition hctx i : bytes := sctx sg_ssid i.
  Definition he_new i j := enc_new C B (hctx i) (hK i) (NN i) (hk i) (hrho i) (pdv j) (s1_d (rnd i) j).
  Definition hl_new i j := log_new C B (hctx i) (hk i) (hrho i) (hK i) (NN i) (pdv j) (gmul (hk i)) (d2 i j).
  (** honest randomness of party i: nonce below the order, a unit rho, proof draws that succeed, nonzero blinding *)
  Record rand_ok (i : nat) : Prop := {
    ro_k : 0 <= hk i < n;
    ro_rho : 1 <= hrho i < NN i /\ Z.gcd (hrho i) (NN i) = 1;
    ro_d1 : forall j, (j < N)%nat -> draws_fit C (s1_d (rnd i) j) /\ he_new i j <> Ret None;
    ro_d2 : forall j, (j < N)%nat -> draws_fit C (d2 i j) /\ hl_new i j <> Ret None;
    ro_z : forall j, zz i j mod ed_p D <> 0 }.
  Hypothesis HS : forall i, (i < N)%nat -> signer_data C N y NN pdv i (sv0 i).
  Hypothesis HP : forall i, (i < N)%nat -> params_ok C y NN pdv i.
  Hypothesis HR : forall i, (i < N)%nat -> rand_ok i.

  Definition he i j : encmsg := match he_new i j with Ret (Some e) => e | _ => {| em_salt := []; em_S := []; em_A := []; em_C := []; em_z1 := []; em_z2 := []; em_z3 := [] |} end.
  Definition hl i j : logmsg := match hl_new i j with Ret (Some e) => e | _ => {| lm_salt := []; lm_S := []; lm_A := []; lm_Yx := []; lm_Yy := []; lm_D := []; lm_z1 := []; lm_z2 := []; lm_z3 := [] |} end.
  Definition zsum (f : nat -> Z) : Z := fold_right Z.add 0 (map f (seq 0 N)).
  Definition sY : point := gmul (zsum y).
  Definition sR : point := gmul (zsum hk).
  Definition hlam : Z := of_le (S5 (ge_bytes sR ++ point_enc D sY ++ to_be m)) mod n.
  Definition hs i : Z := (hlam * y i + hk i) mod n.
  Definition hsum : Z := zsum hs mod n.
  Definition hdata : sigdata :=
    {| sg_sig := big_enc (of_le (ge_bytes sR)) ++ le_fixed 32 hsum; sg_R := to_be (of_le (ge_bytes sR)); sg_S := to_be hsum; sg_M := to_be m |}.
  (** the message of kind k that j sends to i *)
  Definition hmsg (k : skind) (j i : nat) : bytes :=
    match k with
    | K11 => wire_bytes (CS11 (to_be (hK j)))
    | K12 => wire_bytes (CS12 (encmsg_enc (he j i)))
    | K2 => wire_bytes (CS2 (to_be (px (gmul (hk j)))) (to_be (py (gmul (hk j)))) (logmsg_enc (hl j i)))
    | K3 => wire_bytes (CS3 (to_be (hs j)))
    end.
  Definition sst (c i : nat) (s : skind -> list bytes) : sparty :=
    {| sp_i := i; sp_ids := ids; sp_save := if (1 <=? c)%nat then set_ed (Some sY) (sv0 i) else sv0 i;
       sp_r11 := s K11; sp_r12 := s K12; sp_r2 := s K2; sp_r3 := s K3;
       sp_out12 := if (1 <=? c)%nat then map (hmsg K12 i) (seq 0 N) else repeat [] N;
       sp_out2 := if (2 <=? c)%nat then map (hmsg K2 i) (seq 0 N) else repeat [] N;
       sp_k := if (1 <=? c)%nat then Some (hk i) else None;
       sp_rho := if (1 <=? c)%nat then Some (hrho i) else None;
       sp_K := if (2 <=? c)%nat then map (fun j => Some (hK j)) (seq 0 N)
               else if (1 <=? c)%nat then upd i (Some (hK i)) (repeat None N) else repeat None N;
       sp_m := m;
       sp_si := if (3 <=? c)%nat then Some (le_fixed 32 (hs i)) else None;
       sp_r := if (3 <=? c)%nat then Some (of_le (ge_bytes sR)) else None;
       sp_ssid := if (1 <=? c)%nat then sg_ssid else [];
       sp_number := Z.of_nat c;
       sp_data := if (4 <=? c)%nat then hdata else {| sg_sig := []; sg_R := []; sg_S := []; sg_M := [] |} |}.

  (** *** Arithmetic *)
  Lemma n_pos : 0 < n < 2 ^ 253. Proof. pose proof (cl_n_range C L). lia. Qed.
  Lemma n_bits : bits n 253. Proof. pose proof n_pos. unfold bits. lia. Qed.
  Lemma hK_nonce i j : (i < N)%nat -> (j < N)%nat ->
    pal_encrypt (NN i) (hk i) (hrho i) = Some (hK i) /\ honest_nonce (NN i) (hK i) (hk i) (hrho i) n (pdv j).
  Proof.
    intros Hi Hj. destruct (HR i Hi) as [Rk [Rr Rg] _ _ _]. destruct (HP i Hi) as [_ (N2 & Nn & _) _]. destruct (HP j Hj) as [_ _ [Pj _]].
    assert (E : pal_encrypt (NN i) (hk i) (hrho i) = Some (hK i)).
    { unfold hK. unfold pal_encrypt. destruct (Z.ltb_spec (hk i) 0); [lia|]. destruct (Z.leb_spec (NN i) (hk i)); [lia|]. reflexivity. }
    split; [exact E|]. assert (M : 0 < NN i * NN i) by nia.
    unfold pal_encrypt in E. destruct (Z.ltb_spec (hk i) 0); [lia|]. destruct (Z.leb_spec (NN i) (hk i)); [lia|]. change (false || false) with false in E. cbv iota in E.
    apply Some_inj in E. constructor; auto. rewrite <- E. split; [|apply Z.mod_pos_bound; exact M].
    rewrite cong_mod by exact M. rewrite !powm_eq by (assumption || lia). rewrite !cong_mod by exact M.
    rewrite (Z.add_comm (NN i) 1), one_plus_pow by lia. rewrite (Z.mul_comm (hk i)). reflexivity.
  Qed.
  Lemma hK_range i : (i < N)%nat -> 0 <= hK i < NN i * NN i.
  Proof. intro Hi. destruct (hK_nonce i i Hi Hi) as [_ [_ _ [_ R] _]]. exact R. Qed.
  Lemma two_pow_range a k b l M v : two_pow a k b l M = Ret v -> 0 < M -> 0 <= v < M.
  Proof. unfold two_pow. destruct (expm a k M); [|discriminate]. destruct (expm b l M); [|discriminate]. intros E HM. inversion E. apply Z.mod_pos_bound. exact HM. Qed.
  Lemma lt_bits x M b : 0 <= x < M -> bits M b -> bits x b. Proof. unfold bits. lia. Qed.
  Lemma in_short l b : Forall short l -> In b l -> short b. Proof. rewrite Forall_forall. auto. Qed.
  Lemma bitlen_n : 3 * bitlen n + 1 <= 800.
  Proof.
    pose proof n_pos as Hn. unfold bitlen. destruct (Z.eqb_spec (c_n C) 0) as [Hz|Hz]; [lia|]. rewrite Z.abs_eq by lia.
    assert (Z.log2 n < 253) by (apply Z.log2_lt_pow2; lia). lia.
  Qed.
  Lemma alpha_bits d : draws_fit C d -> bits (dr_alpha d) 8192.
  Proof.
    intros [A _ _ _]. pose proof bitlen_n as Bn. pose proof n_pos. assert (0 <= n * n) by nia. unfold bits.
    pose proof (Z.pow_lt_mono_r 2 (3 * bitlen n + 1) 8192 ltac:(lia) ltac:(lia) ltac:(lia)). lia.
  Qed.
  (** e * a + b for a challenge e and draws a, b *)
  Lemma resp_bits e a b : Z.abs e <= n -> bits a 8192 -> bits b 8192 -> bits (e * a + b) 9000.
  Proof.
    intros He Ha Hb. assert (Be : bits e 254) by (pose proof n_bits as Q; unfold bits in *; assert (2 ^ 253 < 2 ^ 254) by reflexivity; lia).
    apply (bits_mono _ (8446 + 1)); [|lia]. apply bits_add; [lia| |].
    - apply (bits_mul e a 254 8192); auto; lia.
    - apply (bits_mono b 8192); auto. lia.
  Qed.

  Lemma he_ok i j : (i < N)%nat -> (j < N)%nat ->
    he_new i j = Ret (Some (he i j)) /\ enc_verify C B (hctx i) (hK i) (NN i) (pdv j) (he i j) = Ret true /\
    encmsg_dec (encmsg_enc (he i j)) = Some (he i j) /\ tiny (encmsg_enc (he i j)).
  Proof.
    intros Hi Hj. destruct (hK_nonce i j Hi Hj) as [_ HN]. destruct (HR i Hi) as [Rk [Rr Rg] R1 _ _].
    destruct (R1 j Hj) as [DF NE]. destruct (HP i Hi) as [_ (N2 & Nn & Nb) _]. destruct (HP j Hj) as [_ _ [Pj Pb]].
    destruct (C27_prover_total C B (hctx i) (hK i) (NN i) (hk i) (hrho i) (pdv j) (s1_d (rnd i) j) Pj N2 Rg) as (o & E & _).
    fold (he_new i j) in E. destruct o as [e|]; [|congruence]. assert (EH : he i j = e) by (unfold he; rewrite E; reflexivity). rewrite EH.
    split; [exact E|]. split; [exact (C27_complete C B _ _ _ _ _ _ _ _ HN (df_alpha _ _ DF) E)|].
    destruct (enc_new_inv _ _ _ _ _ _ _ _ _ _ E) as (r & Sv & A & Cc & ee & re & Er & _ & ES & EA & EC & Ee & _ & Em).
    destruct (get_e_spec _ _ _ _ _ _ Ee) as (_ & Ee2 & Es).
    assert (M : 0 < NN i * NN i) by nia. assert (Mp : 0 < pe_n (pdv j)) by (destruct Pj; lia).
    apply two_pow_range in ES, EA, EC; auto.
    assert (BN2 : bits (NN i * NN i) 8192) by (change 8192 with (4096 + 4096); apply bits_mul; auto; lia).
    assert (Hk9 : bits (hk i) 8192) by (apply (bits_mono _ 253); [apply (lt_bits _ n); [exact Rk|exact n_bits]|lia]).
    assert (F : Forall short [em_salt e; em_S e; em_A e; em_C e; em_z1 e; em_z2 e; em_z3 e]).
    { pose proof (in_short _ _ (df_salts _ _ DF) Es) as Ss. rewrite Em. cbn [em_salt em_S em_A em_C em_z1 em_z2 em_z3]. repeat constructor.
      - exact Ss.
      - apply (to_be_bits _ 4096); [apply (lt_bits _ _ _ ES Pb)|lia].
      - apply (to_be_bits _ 8192); [apply (lt_bits _ _ _ EA BN2)|lia].
      - apply (to_be_bits _ 4096); [apply (lt_bits _ _ _ EC Pb)|lia].
      - apply (ztok_bits _ 9000); [apply resp_bits; auto using alpha_bits|lia].
      - apply (to_be_bits _ 4096); [apply (lt_bits _ (NN i)); [apply Z.mod_pos_bound; lia|exact Nb]|lia].
      - apply (ztok_bits _ 9000); [apply resp_bits; auto; apply DF|lia]. }
    split; [|apply encmsg_tiny; exact F].
    apply encmsg_roundtrip; [eapply Forall_impl; [|exact F]; intros b Hb; apply tiny_small, short_tiny, Hb|rewrite Em; apply ztok_utf8|rewrite Em; apply ztok_utf8].
  Qed.
  Lemma hl_ok i j : (i < N)%nat -> (j < N)%nat ->
    hl_new i j = Ret (Some (hl i j)) /\ log_verify C B (hctx i) (hK i) (NN i) (pdv j) (gmul (hk i)) (hl i j) = Ret true /\
    logmsg_dec (logmsg_enc (hl i j)) = Some (hl i j) /\ tiny (logmsg_enc (hl i j)).
  Proof.
    intros Hi Hj. destruct (hK_nonce i j Hi Hj) as [_ HN]. destruct (HR i Hi) as [Rk [Rr Rg] _ R2 _].
    destruct (R2 j Hj) as [DF NE]. destruct (HP i Hi) as [_ (N2 & Nn & Nb) _]. destruct (HP j Hj) as [_ _ [Pj Pb]].
    destruct (C28_prover_total C L B (hctx i) (hK i) (NN i) (hk i) (hrho i) (pdv j) (gmul (hk i)) (d2 i j) Pj N2 Rg) as (o & E & _).
    fold (hl_new i j) in E. destruct o as [e|]; [|congruence]. assert (EH : hl i j = e) by (unfold hl; rewrite E; reflexivity). rewrite EH.
    split; [exact E|]. split; [exact (C28_complete C L B _ _ _ _ _ _ _ _ HN (df_alpha _ _ DF) E)|].
    destruct (log_new_inv _ _ _ _ _ _ _ _ _ _ _ E) as (r & Sv & A & Dd & Y & ee & re & Er & _ & ES & EA & EY & EC & Ee & _ & Em).
    destruct (get_e_spec _ _ _ _ _ _ Ee) as (_ & Ee2 & Es).
    assert (M : 0 < NN i * NN i) by nia. assert (Mp : 0 < pe_n (pdv j)) by (destruct Pj; lia).
    apply two_pow_range in ES, EA, EC; auto.
    assert (BN2 : bits (NN i * NN i) 8192) by (change 8192 with (4096 + 4096); apply bits_mul; auto; lia).
    assert (Hk9 : bits (hk i) 8192) by (apply (bits_mono _ 253); [apply (lt_bits _ n); [exact Rk|exact n_bits]|lia]).
    rewrite (smul_g_gmul C L) in EY. apply Some_inj in EY. subst Y. destruct (cl_coord C L _ (gmul_canon C L (dr_alpha (d2 i j)))) as [Cx Cy].
    assert (B256 : bits (2 ^ 256) 257) by reflexivity.
    assert (F : Forall short [lm_salt e; lm_S e; lm_A e; lm_Yx e; lm_Yy e; lm_D e; lm_z1 e; lm_z2 e; lm_z3 e]).
    { pose proof (in_short _ _ (df_salts _ _ DF) Es) as Ss. rewrite Em. cbn [lm_salt lm_S lm_A lm_Yx lm_Yy lm_D lm_z1 lm_z2 lm_z3]. repeat constructor.
      - exact Ss.
      - apply (to_be_bits _ 4096); [apply (lt_bits _ _ _ ES Pb)|lia].
      - apply (to_be_bits _ 8192); [apply (lt_bits _ _ _ EA BN2)|lia].
      - apply (to_be_bits _ 257); [apply (lt_bits _ _ _ Cx B256)|lia].
      - apply (to_be_bits _ 257); [apply (lt_bits _ _ _ Cy B256)|lia].
      - apply (to_be_bits _ 4096); [apply (lt_bits _ _ _ EC Pb)|lia].
      - apply (ztok_bits _ 9000); [rewrite Z.add_comm; apply resp_bits; auto using alpha_bits|lia].
      - apply (to_be_bits _ 4096); [apply (lt_bits _ (NN i)); [apply Z.mod_pos_bound; lia|exact Nb]|lia].
      - apply (ztok_bits _ 9000); [rewrite Z.add_comm; apply resp_bits; auto; apply DF|lia]. }
    split; [|apply logmsg_tiny; exact F].
    apply logmsg_roundtrip; [eapply Forall_impl; [|exact F]; intros b Hb; apply tiny_small, short_tiny, Hb|rewrite Em; apply ztok_utf8|rewrite Em; apply ztok_utf8].
  Qed.
End Honest.
