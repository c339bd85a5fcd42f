(** PropEd25519.v -- C52: the curve the repository uses meets everything the other theorems assume of it. *)
From Verif Require Import Base BigInt HashFrame Text Wire Messages PartyID Curve Schnorr Json Save Keygen KeygenNet KeygenHonest KeygenWorld PropKeygen NumTh Paillier RangeProofs RangeThm PropRange Ckd PropCkd Subset PropSubset Onsign OnsignEnc OnsignHist PropSign SignEx PropSignEx SignHonest SignExec SignWorld PropSignHonest FieldP EdGroup EdwardsP Pocklington Ed25519.
From Coq Require Import Znumtheory.

(** ** Specification *)
(** the affine points of -x^2 + y^2 = 1 + d x^2 y^2 modulo 2^255 - 19, d = -121665 / 121666, by their reduced coordinates *)
Definition on_ed25519 (P : point) : Prop :=
  0 <= px P < 2 ^ 255 - 19 /\ 0 <= py P < 2 ^ 255 - 19 /\
  (121666 * (py P * py P - px P * px P - 1) + 121665 * ((px P * px P) * (py P * py P))) mod (2 ^ 255 - 19) = 0.
(** k P by repeated addition, starting from (0, 1) *)
Fixpoint times (C : curve) (k : nat) (P : point) : point := match k with O => (0, 1) | S k => c_add C P (times C k P) end.

Lemma canon_ed P : c_canon ed25519 P <-> on_ed25519 P.
Proof.
  rewrite (canon_iff p25519 n25519 d25519 i25519 gx25519 gy25519 red_25519 pr_p p_mod8 p_bound red_cong). unfold on_ed25519.
  change (2 ^ 255 - 19) with p25519.
  assert (D : cong p25519 (d25519 * 121666) (- 121665)).
  { exists (37095705934669439343138083508754565189542113879843219016388785533085940283555 * 121666 / p25519 + 1). vm_compute. reflexivity. }
  set (x2 := px P * px P). set (y2 := py P * py P). clearbody x2 y2.
  assert (PP : 0 < p25519) by reflexivity. pose proof pr_p as PR. 
  assert (E : (y2 - x2 - 1 - d25519 * x2 * y2) mod p25519 = 0 <-> (121666 * (y2 - x2 - 1) + 121665 * (x2 * y2)) mod p25519 = 0).
  { assert (X : cong p25519 (121666 * (y2 - x2 - 1 - d25519 * x2 * y2)) (121666 * (y2 - x2 - 1) + 121665 * (x2 * y2))).
    { replace (121666 * (y2 - x2 - 1 - d25519 * x2 * y2)) with (121666 * (y2 - x2 - 1) - (d25519 * 121666) * (x2 * y2)) by ring. rewrite D.
      replace (121666 * (y2 - x2 - 1) - -121665 * (x2 * y2)) with (121666 * (y2 - x2 - 1) + 121665 * (x2 * y2)) by ring. reflexivity. }
    apply cong_eq in X; [|exact PP]. rewrite <- X. clear X D. set (w := y2 - x2 - 1 - d25519 * x2 * y2). clearbody w. split; intro H.
    - rewrite Z.mul_mod, H, Z.mul_0_r by discriminate. reflexivity.
    - apply Zmod_divide in H; [|discriminate]. apply prime_mult in H; [|exact PR]. destruct H as [H|H]; [|apply Zdivide_mod; exact H].
      apply Z.divide_pos_le in H; [|reflexivity]. exfalso. revert H. vm_compute. intro H. apply H. reflexivity. }
  rewrite E. reflexivity.
Qed.

(** ** C52 *)
(** the curve has exactly 8 n points, n the (prime) order the program uses *)
Theorem C52_group_order : exists l : list point, NoDup l /\ Z.of_nat (length l) = 8 * c_n ed25519 /\ prime (c_n ed25519) /\
  forall P, In P l <-> on_ed25519 P.
Proof.
  destruct (all_points p25519 n25519 d25519 i25519 gx25519 gy25519 red_25519 pr_p p_mod8 p_bound i_sq d_pow red_cong ty25519 t_on pr_n n_bound p_lt_8n g_range g_on gy_not_1 ng_zero) as (l & ND & Ln & I).
  exists l. split; [exact ND|]. split; [exact Ln|]. split; [exact pr_n|]. intro P. rewrite I. apply canon_ed.
Qed.
(** Add is the Edwards addition law, defined for all pairs of points, and its result is a point *)
Lemma ed_add_spec P Q R t : c_canon ed25519 P -> c_canon ed25519 Q -> R = c_add ed25519 P Q -> t = d25519 * px P * px Q * py P * py Q ->
  c_canon ed25519 R /\ (1 + t) mod p25519 <> 0 /\ (1 - t) mod p25519 <> 0 /\
    (px R * (1 + t) - (px P * py Q + px Q * py P)) mod p25519 = 0 /\
    (py R * (1 - t) - (py P * py Q + px P * px Q)) mod p25519 = 0.
Proof. exact (add_spec p25519 n25519 d25519 i25519 gx25519 gy25519 red_25519 pr_p p_mod8 p_bound i_sq d_pow red_cong P Q R t). Qed.
Lemma new_point_on C P : Curve.on C P = true -> new_point C (px P) (py P) = Some P.
Proof. destruct P as [x y]. unfold Curve.on, new_point, px, py. cbn [fst snd]. intros ->. reflexivity. Qed.
Lemma new_point_canon P : c_canon ed25519 P -> new_point ed25519 (px P) (py P) = Some P.
Proof. intro H. apply new_point_on. exact (cl_canon_on _ C52_curve_laws P H). Qed.
Theorem C52_add P Q : on_ed25519 P -> on_ed25519 Q ->
  exists R, pt_add ed25519 P Q = Some R /\ on_ed25519 R /\
    let t := d25519 * px P * px Q * py P * py Q in
    (1 + t) mod (2 ^ 255 - 19) <> 0 /\ (1 - t) mod (2 ^ 255 - 19) <> 0 /\
    (px R * (1 + t) - (px P * py Q + px Q * py P)) mod (2 ^ 255 - 19) = 0 /\
    (py R * (1 - t) - (py P * py Q + px P * px Q)) mod (2 ^ 255 - 19) = 0.
Proof.
  intros HP HQ. apply canon_ed in HP. apply canon_ed in HQ. unfold pt_add. cbv zeta.
  pose proof (ed_add_spec P Q _ _ HP HQ eq_refl eq_refl) as S. set (R := c_add ed25519 P Q) in *. clearbody R. destruct S as (CR & S).
  exists R. split; [apply new_point_canon; exact CR|]. split; [apply canon_ed; exact CR|]. set (t := d25519 * px P * px Q * py P * py Q) in *. clearbody t. exact S.
Qed.
(** ScalarMult by any integer is repeated addition (k mod n times), never nil on a curve point *)
Lemma smul_times P k : Curve.on ed25519 P = true -> 0 <= k -> c_smul ed25519 P k = times ed25519 (Z.to_nat k) P.
Proof.
  intros H K. pose proof C52_curve_laws as L. revert k K. apply natlike_ind; [apply (cl_smul_0 _ L _ H)|].
  intros k K IH. replace (Z.to_nat (Z.succ k)) with (S (Z.to_nat k)) by lia. cbn [times]. rewrite <- IH. apply (cl_smul_S _ L); assumption.
Qed.
Theorem C52_scalar_mult P k : on_ed25519 P ->
  pt_smul ed25519 P k = Some (times ed25519 (Z.to_nat (k mod c_n ed25519)) P) /\ on_ed25519 (times ed25519 (Z.to_nat (k mod c_n ed25519)) P).
Proof.
  intro HP. apply canon_ed in HP. pose proof C52_curve_laws as L. pose proof (cl_canon_on _ L _ HP) as O.
  assert (K : 0 <= k mod c_n ed25519) by (apply Z.mod_pos_bound; reflexivity).
  pose proof (canon_smul _ L _ _ O K) as CS. rewrite <- (smul_times _ _ O K). split; [|apply canon_ed; exact CS].
  unfold pt_smul. cbv zeta. set (R := c_smul ed25519 P (k mod c_n ed25519)) in *. clearbody R. apply new_point_canon. exact CS.
Qed.
(** ScalarBaseMult: j G = k G exactly when j = k modulo n *)
Theorem C52_base_mult j k : base_mul ed25519 j = base_mul ed25519 k <-> (j - k) mod c_n ed25519 = 0.
Proof.
  pose proof C52_curve_laws as L. rewrite !(base_mul_eq _ L). assert (N0 : c_n ed25519 <> 0) by discriminate.
  split; intro H.
  - assert (E : gmul ed25519 j = gmul ed25519 k) by congruence. apply (gmul_inj _ L) in E. rewrite Zminus_mod, E, Z.sub_diag. apply Zmod_0_l.
  - f_equal. apply (gmul_eqm _). apply Zmod_divide in H; [|exact N0]. destruct H as [q Hq]. replace j with (k + q * c_n ed25519) by lia. apply Z_mod_plus_full.
Qed.
(** compressing a point and decompressing the 32 bytes gives it back; whatever decompresses is a point *)
Theorem C52_compression P b : (on_ed25519 P -> ed_dec ed25519lib (point_enc ed25519lib P) = Some P) /\ (ed_dec ed25519lib b = Some P -> on_ed25519 P).
Proof.
  pose proof C52_encoding_laws as L. split; intro H.
  - apply canon_ed in H. exact (C34_point_roundtrip _ _ _ L H).
  - apply canon_ed. exact (el_dec_canon _ _ L _ _ H).
Qed.
(** the published base point, its published encoding 5866...66, and 2 G, 3 G *)
Theorem C52_example :
  on_ed25519 (c_g ed25519) /\ c_g ed25519 <> (0, 1) /\
  point_enc ed25519lib (c_g ed25519) = zb 88 :: repeat (zb 102) 31 /\
  ed_dec ed25519lib (zb 88 :: repeat (zb 102) 31) = Some (c_g ed25519) /\
  base_mul ed25519 3 = Some (46896733464454938657123544595386787789046198280132665686241321779790909858396,
                             8324843778533443976490377120369201138301417226297555316741202210403726505172) /\
  pt_add ed25519 (c_g ed25519) (c_g ed25519) = Some (24727413235106541002554574571675588834622768167397638456726423682521233608206,
                                                     15549675580280190176352668710449542251549572066445060580507079593062643049417).
Proof.
  pose proof C52_curve_laws as L. pose proof (proj1 (canon_ed _) (cl_g_canon _ L)) as GC.
  assert (EN : point_enc ed25519lib (c_g ed25519) = zb 88 :: repeat (zb 102) 31) by (vm_compute; reflexivity).
  split; [exact GC|]. split; [discriminate|]. split; [exact EN|]. split; [rewrite <- EN; exact (proj1 (C52_compression _ []) GC)|].
  split; vm_compute; reflexivity.
Qed.

(** ** What was proved for every curve meeting the laws, on the curve of the program *)
Theorem C05_on_ed25519 H N rnd pids roots :
  (forall b, length (H b) = 32%nat) -> (0 < N)%nat -> (forall i, (i < N)%nat -> length (kr_u (rnd i)) = 32%nat /\ length (kr_srid (rnd i)) = 32%nat) ->
  forall w, k_reach ed25519 H N rnd pids roots w ->
    (forall e, k_enabled N e w -> exists res w', k_run ed25519 H rnd e w = Ret (res, w') /\ ((forall i c, e <> KChain i c) -> r_ok res = true)) /\
    (exists w', k_steps ed25519 H N rnd w w' /\ forall i, (i < N)%nat -> w_out w' 4%nat i <> None) /\
    (forall i b, (i < N)%nat -> w_out w 4%nat i = Some b -> exists s, save_dec ed25519 b = Some s /\
       sv_priv s = Some (root_scalar roots i) /\ sv_ed s = base_mul ed25519 (fold_right Z.add 0 (map (root_scalar roots) (seq 0 N)))).
Proof.
  intros HL HN HR w R. assert (E : kg_env ed25519 H N rnd) by (split; [exact C52_curve_laws|split; [exact HL|split; [exact HN|exact HR]]]).
  split; [intros e En; exact (C05_every_call_succeeds ed25519 H N rnd pids roots E w e R En)|].
  split; [exact (C05_no_deadlock ed25519 H N rnd pids roots E w R)|].
  intros i b Hi Ho. destruct (C05_output ed25519 H N rnd pids roots E w i b R Hi Ho) as (s & A1 & A2 & _ & _ & A3 & _). eauto.
Qed.
Theorem C17_on_ed25519 B S5 HM spare N i pids msg kd rf path r0 p0 l p res p' : (i < N)%nat ->
  sg_new ed25519 HM spare (Z.of_nat i) (Z.of_nat N) pids msg kd rf path = Ret (r0, Some p0) -> s_hist ed25519 ed25519lib B S5 p0 l p ->
  sop_run ed25519 ed25519lib B S5 SFinal p = Ret (res, p') -> r_ok res = true ->
  exists d A m, r_data res = sig_json d /\ sv_ed (sp_save p) = Some A /\ hex_dec msg = Some m /\
    ed25519_valid ed25519 ed25519lib S5 (point_enc ed25519lib A) (sg_M d) (sg_sig d) /\ sg_M d = strip0 m.
Proof.
  intros Hi New Hh E Ok. destruct (C17_returned_signature_verifies ed25519 ed25519lib B S5 HM spare N i pids msg kd rf path r0 p0 l p res p' C52_curve_laws C52_encoding_laws Hi New Hh E Ok)
    as (d & A & m & _ & H1 & H2 & H3 & H4 & _ & _ & H5). exists d, A, m. auto.
Qed.
Theorem C18_on_ed25519 B S5 HM spare N pids msg kd rf path x cc ks M payload P rnd d2 zz w0 :
  sign_args ed25519 HM N pids msg kd rf path x cc ks M payload P ->
  (forall i, (i < N)%nat -> rand_ok ed25519 ed25519lib B N (record_N payload) (rec_ped payload) rnd d2 zz i) ->
  v_start ed25519 HM spare N pids msg kd rf path w0 ->
  (forall w e, v_steps ed25519 ed25519lib B S5 N rnd d2 zz w0 w -> v_enabled ed25519 ed25519lib B S5 N e w ->
     exists res w', v_run ed25519 ed25519lib B S5 rnd d2 zz e w = Ret (res, w') /\ r_ok res = true) /\
  (exists d, forall w, v_steps ed25519 ed25519lib B S5 N rnd d2 zz w0 w ->
     (forall i out, (i < N)%nat -> v_out w 4 i = Some out -> out = sig_json d) /\
     ed25519_valid ed25519 ed25519lib S5 (point_enc ed25519lib (group_pub ed25519 N P)) (sg_M d) (sg_sig d) /\ sg_M d = strip0 M) /\
  (forall w, (0 < N)%nat -> v_steps ed25519 ed25519lib B S5 N rnd d2 zz w0 w ->
     exists w', v_steps ed25519 ed25519lib B S5 N rnd d2 zz w w' /\ forall i, (i < N)%nat -> exists out, v_out w' 4 i = Some out).
Proof.
  intros A HR W0. split; [|split].
  - intros w e. exact (C18_every_call_succeeds ed25519 ed25519lib B S5 HM spare C52_curve_laws C52_encoding_laws N pids msg kd rf path x cc ks M payload P A rnd d2 zz HR w0 W0 w e).
  - destruct (C18_same_signature ed25519 ed25519lib B S5 HM spare C52_curve_laws C52_encoding_laws N pids msg kd rf path x cc ks M payload P A rnd d2 zz HR w0 W0) as (d & S).
    exists d. intros w St. destruct (S w St) as (S1 & S2 & S3 & _). auto.
  - intros w. exact (C18_no_deadlock ed25519 ed25519lib B S5 HM spare C52_curve_laws C52_encoding_laws N pids msg kd rf path x cc ks M payload P A rnd d2 zz HR w0 W0 w).
Qed.
