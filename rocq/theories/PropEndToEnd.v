(** PropEndToEnd.v -- C54: what key generation returns is what signing needs.  The data returned by round 4, base64 encoded
    and handed back to NewSignLocalParty, lets the same parties sign, under a key that everybody can compute from the public
    key of the key generation, the chain codes and the path.

    Reading guide: [k_reach] (KeygenNet.v) and [v_start], [v_steps], [v_enabled] (SignWorld.v, PropSignHonest.v) are the
    asynchronous networks of C05 and C18; [save_dec] reads the returned JSON. *)
From Verif Require Import Base BigInt HashFrame Text Wire Messages PartyID Curve Schnorr Json Save Keygen Xor KeygenNet KeygenHonest KeygenWorld ToyCurve PropKeygen PropKeygenAdv PropKeygenCalls NumTh Paillier RangeProofs RangeThm PropRange Ckd PropCkd Subset PropSubset Onsign OnsignEnc OnsignHist PropSign SignEx PropSignEx SignHonest SignExec SignWorld PropSignHonest KeygenAdv Ed25519 PropEd25519.
From Coq Require Import Sorted Permutation.

(** ** Specification *)
(** steps of the key-generation network in which party i does not call SaveChainCodes *)
Inductive no_chain (C : curve) (H : bytes -> bytes) (N : nat) (rnd : nat -> kg_rand) (i : nat) : kworld -> kworld -> Prop :=
| nc_refl w : no_chain C H N rnd i w w
| nc_cons w e res w' w'' : (forall codes, e <> KChain i codes) -> k_enabled N e w -> k_run C H rnd e w = Ret (res, w') ->
    no_chain C H N rnd i w' w'' -> no_chain C H N rnd i w w''.

(** what the caller checks before signing: every party's returned data carries the same chain codes cc_0 ... cc_(N-1) *)
Definition codes_saved (C : curve) (N : nat) (b : nat -> bytes) (cc : nat -> Z) : Prop :=
  forall i s, (i < N)%nat -> save_dec C (b i) = Some s -> sv_chain s = Some (map (fun j => Some (cc j)) (seq 0 N)).

(** the other arguments of NewSignLocalParty, shared by all parties: a hex message, a non-hardened path of five indices whose
    child keys exist, and a refresh payload with a usable record for every party *)
Record sign_inputs (C : curve) (HM : bytes -> bytes -> bytes) (N : nat) (x cc : nat -> Z) (msg rf path M payload : bytes) (P : nat -> point) : Prop := {
  si_msg : hex_dec msg = Some M;
  si_path : length (split slash path) = 5%nat /\ ~ In quote path;
  si_child : forall j, (j < N)%nat -> derive_pub C HM (gmul C (x j)) (gmul C (zsum N x)) (to_be (cc j)) path = Ret (P j);
  si_refresh : hex_dec rf = Some payload /\ (1376 + 673 * N <= length payload)%nat;
  si_recs : forall j, (j < N)%nat -> 2 < record_N payload j /\ c_n C <= record_N payload j /\ ped_ok (rec_ped payload j) }.

(** ** Proof *)
Lemma no_chain_trans C H N rnd i w1 w2 w3 : no_chain C H N rnd i w1 w2 -> no_chain C H N rnd i w2 w3 -> no_chain C H N rnd i w1 w3.
Proof. induction 1; auto. intro S. econstructor; eauto. Qed.
Lemma key_int_to_be ids : (forall p, In p ids -> exists z, pid_key p = to_be z) -> map pid_key ids = map to_be (keys ids).
Proof.
  intro A. unfold keys. rewrite map_map. apply map_ext_in. intros p I. destruct (A p I) as (z & E). unfold key_int. rewrite E.
  rewrite of_be_to_be. destruct (Z.abs_spec z) as [[_ ->]|[_ ->]]; [reflexivity|]. unfold to_be. rewrite Z.abs_opp. reflexivity.
Qed.
Lemma build_ids_keys i k pids l : build_ids i k pids = Ret l -> forall p, In p l -> exists z, pid_key p = to_be z.
Proof.
  revert i pids l; induction k as [|k IH]; intros i pids l E; cbn in E; [injection E as <-; intros p []|].
  destruct pids as [|s pids]; [discriminate E|]. unfold new_party_id in E. destruct (parse_int 10 s) as [z|]; cbn in E; [|discriminate E].
  destruct (build_ids (i + 1) k pids) as [ps|] eqn:B; cbn in E; [|discriminate E]. injection E as <-. intros p [<-|I]; [exists z; reflexivity|exact (IH _ _ _ B p I)].
Qed.
Lemma assign_index_pidkey s l : map pid_key (assign_index s l) = map pid_key l.
Proof. revert s; induction l as [|p l IH]; intro s; cbn; [reflexivity|]. rewrite IH. reflexivity. Qed.
Lemma make_ids_signers n pids ids : make_ids (Z.of_nat n) pids = Ret ids -> NoDup (keys ids) -> signers ids (keys ids).
Proof.
  intros E ND. assert (K : Forall (fun k => 0 <= k) (keys ids)).
  { unfold keys. apply Forall_map, Forall_forall. intros p _. apply of_be_range. }
  unfold make_ids in E. destruct (Z.ltb_spec (Z.of_nat n) 0); [lia|]. rewrite Nat2Z.id in E.
  destruct (build_ids 0 n pids) as [l|] eqn:B; cbn [obind] in E; [|discriminate E]. injection E as <-. unfold sort_party_ids in *. split; [|split; [|exact K]].
  - rewrite assign_index_pidkey, assign_index_keys. apply key_int_to_be. intros p I. apply (build_ids_keys _ _ _ _ B).
    eapply Permutation_in; [apply sort_perm|exact I].
  - rewrite assign_index_keys in *. pose proof (sort_asc l) as A. clear -A ND. unfold asc, keys in *. induction A as [|p l' A IH F]; cbn [map] in *; constructor.
    + inversion ND as [|? ? _ ND']. exact (IH ND').
    + inversion ND as [|? ? NI _]. rewrite Forall_forall in F. apply Forall_map, Forall_forall. intros q I.
      specialize (F q I). assert (key_int p <> key_int q) by (intro Q; apply NI; rewrite Q; apply in_map; exact I). lia.
Qed.

Lemma save_enc_chain a b : save_enc a = save_enc b -> sv_chain a = sv_chain b.
Proof.
  unfold save_enc. intro Q. apply (f_equal jdec) in Q. rewrite !jdec_jenc in Q by apply jok_save. apply Some_inj in Q.
  unfold save_json in Q. injection Q as _ _ Q _ _ _ _ _.
  assert (MI : forall l m, map jz l = map jz m -> l = m).
  { induction l as [|u l IH]; intros [|v m] X; try discriminate X; [reflexivity|]. cbn [map] in X. injection X as X1 X2. f_equal; [|apply IH; exact X2].
    apply (f_equal dz) in X1. rewrite !dz_jz in X1. apply Some_inj in X1. exact X1. }
  destruct (sv_chain a), (sv_chain b); try discriminate Q; [|reflexivity]. injection Q as Q. f_equal. apply MI. exact Q.
Qed.

Lemma nth_error_ext_eq {A} (l m : list A) : length l = length m -> (forall j, (j < length l)%nat -> nth_error l j = nth_error m j) -> l = m.
Proof.
  revert m; induction l as [|a l IH]; intros [|c m] Ln Q; try discriminate Ln; [reflexivity|]. cbn in Ln.
  pose proof (Q 0%nat ltac:(cbn; lia)) as Q0. cbn in Q0. f_equal; [congruence|]. apply IH; [lia|]. intros j Hj. exact (Q (S j) ltac:(cbn; lia)).
Qed.

Section EndToEnd.
  Variables (C : curve) (H : bytes -> bytes) (N : nat) (krnd : nat -> kg_rand) (pids : list bytes) (roots : nat -> bytes).
  Hypothesis E : kg_env C H N krnd.
  Notation reach := (k_reach C H N krnd pids roots).
  Notation x := (root_scalar roots).
  Notation chain w i := (sv_chain (kp_save (w_p w i))).

  Lemma chain_step w e res w' i : reach w -> k_enabled N e w -> k_run C H krnd e w = Ret (res, w') -> (i < N)%nat ->
    (forall codes, e <> KChain i codes) -> chain w' i = chain w i.
  Proof.
    intros R En Run Hi NC. destruct E as (L & Hl & HN & Hr).
    destruct (KeygenWorld.reach_inv C L H Hl N krnd Hr pids roots w HN R) as (ids & M & Li & pc & ch & s & I).
    assert (Q : forall w1 pc1 s1, kinv C H N krnd ids x w1 pc1 ch s1 -> chain w1 i = ch i).
    { intros w1 pc1 s1 I1. rewrite (ki_st _ _ _ _ _ _ _ _ _ _ I1 i Hi). reflexivity. }
    rewrite (Q _ _ _ I). destruct e as [r k|r k j|k codes].
    - destruct (KeygenWorld.enabled_exec C H Hl N krnd Hr ids Li x w pc ch s r k I En) as (Hk & Hrr & PCr & FILL).
      destruct (KeygenWorld.exec_step C L H Hl N krnd Hr ids Li x w pc ch s r k I Hk Hrr PCr FILL) as (res1 & w1 & s1 & E1 & I1 & _).
      rewrite Run in E1. assert (w' = w1) by congruence. subst w1. exact (Q _ _ _ I1).
    - destruct En as (Hk & Hj & Hrr & Ho). rewrite (ki_out _ _ _ _ _ _ _ _ _ _ I) in Ho by auto.
      destruct (Nat.leb_spec r (pc j)) as [Hp|]; [|congruence].
      destruct (KeygenWorld.deliver_step C L H Hl N krnd Hr ids Li x w pc ch s r k j I Hk Hj Hrr Hp) as (res1 & w1 & E1 & I1 & _).
      rewrite Run in E1. assert (w' = w1) by congruence. subst w1. exact (Q _ _ _ I1).
    - rewrite <- (Q _ _ _ I). cbn [k_run] in Run. destruct (save_chain_codes codes (w_p w k)) as [[r p]|]; cbn [obind] in Run; [|discriminate Run].
      assert (W : w' = {| w_p := fupd (w_p w) k p; w_out := w_out w |}) by congruence. rewrite W. cbn [w_p]. rewrite fupd_diff; [reflexivity|].
      intros ->. apply (NC codes). reflexivity.
  Qed.

  Lemma out4_step w e res w' i l : reach w -> k_enabled N e w -> k_run C H krnd e w = Ret (res, w') -> (i < N)%nat ->
    (forall codes, e <> KChain i codes) -> chain w i = l ->
    (w_out w 4 i = None \/ exists sv, w_out w 4 i = Some (save_enc sv) /\ sv_chain sv = l) ->
    (w_out w' 4 i = None \/ exists sv, w_out w' 4 i = Some (save_enc sv) /\ sv_chain sv = l).
  Proof.
    intros R En Run Hi NC Ch O. destruct e as [r k|r k j|k codes].
    - assert (OK : r_ok res = true).
      { destruct (C05_every_call_succeeds C H N krnd pids roots E w (KExec r k) R En) as (res1 & w1 & E1 & Ok). rewrite Run in E1.
        assert (res = res1) by congruence. subst res1. apply Ok. intros; discriminate. }
      cbn [k_run] in Run. destruct (k_exec C H krnd r k (w_p w k)) as [[r1 p]|] eqn:X; cbn [obind] in Run; [|discriminate Run].
      assert (r1 = res) by congruence. subst r1.
      assert (W : w' = {| w_p := fupd (w_p w) k p; w_out := fupd (w_out w) r (fupd (w_out w r) k (Some (r_data res))) |}) by congruence. rewrite W. cbn [w_out].
      destruct (Nat.eq_dec r 4) as [->|Er]; [|rewrite fupd_diff by auto; exact O]. rewrite fupd_same.
      destruct (Nat.eq_dec i k) as [->|Ek]; [|rewrite fupd_diff by auto; exact O]. rewrite fupd_same. right.
      cbn [k_exec] in X. unfold kg_r4_exec in X. destruct (kg_r4_loop _ _ _ _) as [o|]; cbn [obind] in X; [|discriminate X].
      destruct o as [err|]; [assert (res = fail err) by congruence; subst res; discriminate OK|].
      destruct (sum_pub _ _) as [[err|y]|]; cbn [obind] in X; [assert (res = fail err) by congruence; subst res; discriminate OK| |discriminate X].
      assert (X1 : res = okd (save_enc (set_ed (Some y) (kp_save (k_set_number 4 (w_p w k)))))) by congruence. rewrite X1. eexists. split; [reflexivity|]. exact Ch.
    - cbn [k_run] in Run. destruct (w_out w r j) as [m|]; [|discriminate Run]. destruct (kg_accept _ _ _ _) as [[r1 p]|]; cbn [obind] in Run; [|discriminate Run].
      assert (W : w_out w' = w_out w) by (assert (w' = {| w_p := fupd (w_p w) k p; w_out := w_out w |}) as -> by congruence; reflexivity). rewrite W. exact O.
    - cbn [k_run] in Run. destruct (save_chain_codes _ _) as [[r1 p]|]; cbn [obind] in Run; [|discriminate Run].
      assert (W : w_out w' = w_out w) by (assert (w' = {| w_p := fupd (w_p w) k p; w_out := w_out w |}) as -> by congruence; reflexivity). rewrite W. exact O.
  Qed.

  Lemma pub_length w i : reach w -> (i < N)%nat -> length (sv_pub (kp_save (w_p w i))) = N.
  Proof.
    intros R Hi. destruct E as (L & Hl & HN & Hr). destruct (KeygenWorld.reach_inv C L H Hl N krnd Hr pids roots w HN R) as (ids & M & Li & pc & ch & s & I).
      rewrite (ki_st _ _ _ _ _ _ _ _ _ _ I i Hi). cbn [kp_save KeygenHonest.st KeygenHonest.sv sv_pub]. destruct (3 <=? pc i)%nat; [rewrite map_length, seq_length; reflexivity|].
      destruct (1 <=? pc i)%nat; rewrite ?upd_length, repeat_length; reflexivity.
  Qed.

  (** *** codes accepted by SaveChainCodes before round 4 are in the data round 4 returns: N numbers, in the order given *)
  Theorem C54_codes_in_output w i codes res w1 w2 b : reach w -> (i < N)%nat -> w_out w 4 i = None ->
    k_run C H krnd (KChain i codes) w = Ret (res, w1) -> r_ok res = true -> no_chain C H N krnd i w1 w2 -> w_out w2 4 i = Some b ->
    exists s, save_dec C b = Some s /\ sv_chain s = Some (map (parse_int 16) (split (zb 124) codes)) /\
      length (split (zb 124) codes) = N /\ forall t, In t (split (zb 124) codes) -> parse_int 16 t <> None.
  Proof.
    intros R Hi O Run Ok Q O2.
    assert (R1 : reach w1) by (eapply kr_step; [exact R| |exact Run]; exact Hi).
    assert (Lp : length (sv_pub (kp_save (w_p w i))) = N) by (apply pub_length; assumption).
    destruct (C15_chain_codes C H codes (w_p w i)) as (res' & p' & E1 & _ & E2 & E3).
    cbn [k_run] in Run. cbn [kop_run] in E1. rewrite E1 in Run. cbn [obind] in Run. assert (res' = res) by congruence. subst res'.
    assert (W1 : w1 = {| w_p := fupd (w_p w) i p'; w_out := w_out w |}) by congruence.
    destruct (proj1 E2 Ok) as [Ln Pn]. rewrite Lp in Ln. specialize (E3 Ok).
    set (l := Some (map (parse_int 16) (split (zb 124) codes))) in *.
    assert (Ch : chain w1 i = l) by (rewrite W1; cbn [w_p]; rewrite fupd_same, E3; reflexivity).
    assert (O1 : w_out w1 4 i = None \/ exists sv, w_out w1 4 i = Some (save_enc sv) /\ sv_chain sv = l) by (left; rewrite W1; exact O).
    clear E1 E2 E3 W1 Run. assert (Z : reach w2 /\ (w_out w2 4 i = None \/ exists sv, w_out w2 4 i = Some (save_enc sv) /\ sv_chain sv = l)).
    { clear O2. induction Q as [w1|w1 e r w1' w2 NC En Run Q IH]; [auto|]. apply IH.
      - eapply kr_step; eauto.
      - rewrite <- Ch. eapply chain_step; eauto.
      - eapply out4_step; eauto. }
    destruct Z as [R2 [Z|(sv0 & Z & Zc)]]; [congruence|]. rewrite O2 in Z. assert (Eb : b = save_enc sv0) by congruence.
    destruct E as (L & Hl & HN & Hr). destruct (KeygenWorld.reach_inv C L H Hl N krnd Hr pids roots w2 HN R2) as (ids2 & M2 & Li2 & pc & ch & s & I).
    pose proof (ki_out4 _ _ _ _ _ _ _ _ _ _ I i Hi) as O4. destruct (4 <=? pc i)%nat; [|congruence]. destruct O4 as (c' & O4).
    rewrite O2 in O4. assert (Eb' : b = save_enc (KeygenHonest.sv C N ids2 x 4 i c')) by congruence.
    assert (D' : save_dec C b = Some (KeygenHonest.sv C N ids2 x 4 i c')).
    { rewrite Eb'. apply save_roundtrip. split; cbn [KeygenHonest.sv sv_pub sv_ed Nat.leb].
      - intros p Hp. apply in_map_iff in Hp. destruct Hp as (k & Ek & _). injection Ek as <-. apply gmul_on; auto.
      - intros p Hp. injection Hp as <-. apply gmul_on; auto. }
    eexists. split; [exact D'|]. split; [|auto]. rewrite <- Zc. apply save_enc_chain. rewrite <- Eb, Eb'. reflexivity.
  Qed.

  (** *** and key generation can always be completed with them *)
  Lemma steps_no_chain i w w' : k_steps C H N krnd w w' -> no_chain C H N krnd i w w'.
  Proof. induction 1 as [w|w e res w1 w2 NC En Run _ IH]; econstructor; eauto. Qed.
  Theorem C54_codes_reach_output w codes : reach w -> (forall i, (i < N)%nat -> w_out w 4 i = None) ->
    length (split (zb 124) codes) = N -> (forall t, In t (split (zb 124) codes) -> parse_int 16 t <> None) ->
    exists w' b, reach w' /\ forall i, (i < N)%nat -> w_out w' 4 i = Some (b i) /\
      exists s, save_dec C (b i) = Some s /\ sv_chain s = Some (map (parse_int 16) (split (zb 124) codes)).
  Proof.
    intros R O Ln Pn.
    assert (A : forall k, (k <= N)%nat -> exists w1, reach w1 /\ (forall i, (i < N)%nat -> w_out w1 4 i = None) /\
      forall i, (i < k)%nat -> exists w0 res w0', reach w0 /\ w_out w0 4 i = None /\ k_run C H krnd (KChain i codes) w0 = Ret (res, w0') /\ r_ok res = true /\ no_chain C H N krnd i w0' w1).
    { induction k as [|k IH]; intro Hk; [exists w; split; [exact R|]; split; [exact O|]; intros; lia|].
      destruct (IH ltac:(lia)) as (w1 & R1 & O1 & Q1).
      destruct (C15_chain_codes C H codes (w_p w1 k)) as (res & p' & E1 & _ & E2 & _). cbn [kop_run] in E1.
      assert (Lp : length (sv_pub (kp_save (w_p w1 k))) = N) by (apply pub_length; [exact R1|lia]).
      assert (Ok : r_ok res = true) by (apply E2; rewrite Lp; auto).
      set (w2 := {| w_p := fupd (w_p w1) k p'; w_out := w_out w1 |}).
      assert (Run : k_run C H krnd (KChain k codes) w1 = Ret (res, w2)) by (cbn [k_run]; rewrite E1; reflexivity).
      exists w2. split; [eapply kr_step; [exact R1| |exact Run]; cbn; lia|]. split; [exact O1|].
      intros i Hi. destruct (Nat.eq_dec i k) as [->|Ne].
      - exists w1, res, w2. split; [exact R1|]. split; [apply O1; lia|]. split; [exact Run|]. split; [exact Ok|constructor].
      - destruct (Q1 i ltac:(lia)) as (w0 & r0 & w0' & X1 & X2 & X3 & X4 & X5). exists w0, r0, w0'. repeat (split; [assumption|]).
        eapply no_chain_trans; [exact X5|]. eapply nc_cons; [|cbn; instantiate (1 := KChain k codes); cbn; lia|exact Run|constructor]. intros c Q. injection Q as Q _. lia. }
    destruct (A N ltac:(lia)) as (w1 & R1 & O1 & Q1).
    destruct (C05_no_deadlock C H N krnd pids roots E w1 R1) as (w2 & St & D2).
    assert (R2 : reach w2) by (eapply reach_steps; eauto).
    exists w2, (fun i => match w_out w2 4 i with Some b => b | None => [] end). split; [exact R2|]. intros i Hi.
    specialize (D2 i Hi). destruct (w_out w2 4 i) as [b|] eqn:Ob; [|congruence]. split; [reflexivity|].
    destruct (Q1 i Hi) as (w0 & r0 & w0' & X1 & X2 & X3 & X4 & X5).
    destruct (C54_codes_in_output w0 i codes r0 w0' w2 b X1 Hi X2 X3 X4) as (s & Ds & Cs & _); [|exact Ob|eauto].
    eapply no_chain_trans; [exact X5|apply steps_no_chain, St].
  Qed.

  Variables (D : edlib) (B S5 : bytes -> bytes) (HM : bytes -> bytes -> bytes) (spare : bytes -> bytes).
  Hypothesis LD : ed_laws C D.
  Variables (w : kworld) (b : nat -> bytes) (cc : nat -> Z) (ids : list party_id).
  Hypothesis R : reach w.
  Hypothesis Hb : forall i, (i < N)%nat -> w_out w 4 i = Some (b i).
  Hypothesis Hc : codes_saved C N b cc.
  Hypothesis Hids : make_ids (Z.of_nat N) pids = Ret ids /\ NoDup (keys ids).
  Hypothesis Hx : forall i, (i < N)%nat -> x i < 2 ^ 256.
  Variables (msg rf path M payload : bytes) (P : nat -> point).
  Hypothesis SI : sign_inputs C HM N x cc msg rf path M payload P.
  (** the key data passed to NewSignLocalParty: base64 of what round 4 returned *)
  Notation kd := (fun i => b64_enc (b i)).

  Lemma root_nonneg i : 0 <= x i.
  Proof. unfold root_scalar. destruct (hex_dec _) as [kb|]; [apply of_be_range|lia]. Qed.

  Lemma e2e_args : sign_args C HM N pids msg kd rf path x cc (keys ids) M payload P.
  Proof.
    destruct Hids as [Mi ND]. destruct SI as [S1 S2 S3 S4 S5']. pose proof (make_ids_signers N pids ids Mi ND) as Sg.
    constructor; auto.
    - split; [unfold keys; rewrite map_length; exact (make_ids_length _ _ _ Mi)|]. destruct Sg as (_ & G1 & G2). auto.
    - exists ids. auto.
    - intros i Hi. destruct (C05_output C H N krnd pids roots E w i (b i) R Hi (Hb i Hi)) as (s & Ds & P1 & P2 & P3 & P4 & P5 & ids' & Mi' & P6 & _).
      assert (ids' = ids) by congruence. subst ids'. exists (b i), s. split; [apply b64_roundtrip|]. split; [exact Ds|].
      destruct E as (L & _). constructor.
      + exact P1.
      + apply nth_error_ext_eq. * rewrite map_length, seq_length; exact P2.
        * intros j Hj. rewrite P2 in Hj. rewrite (P3 j Hj), (nth_error_map_seq (fun j => Some (gmul C (x j)))) by exact Hj. rewrite base_mul_eq by exact L. reflexivity.
      + rewrite P4. rewrite base_mul_eq by exact L. reflexivity.
      + exact (Hc i s Hi Ds).
      + exact P6.
    - intros i Hi. split; [apply root_nonneg|apply Hx; exact Hi].
  Qed.

  (** *** the sessions can be created ... *)
  Theorem C54_sign_sessions i : (i < N)%nat -> exists p, sg_new C HM spare (Z.of_nat i) (Z.of_nat N) pids msg (b64_enc (b i)) rf path = Ret (ok0, Some p).
  Proof. intro Hi. destruct E as (L & _). exact (C18_new_succeeds C B S5 HM spare L N pids msg kd rf path x cc (keys ids) M payload P e2e_args i Hi). Qed.

  (** *** ... and whatever the schedule, no call fails, the run can be completed, and all parties return one signature of the
      message, valid under the sum of the child public shares *)
  Theorem C54_keygen_then_sign rnd d2 zz w0 : (forall i, (i < N)%nat -> rand_ok C D B N (record_N payload) (rec_ped payload) rnd d2 zz i) ->
    v_start C HM spare N pids msg kd rf path w0 ->
    (forall w1 e, v_steps C D B S5 N rnd d2 zz w0 w1 -> v_enabled C D B S5 N e w1 -> exists res w2, v_run C D B S5 rnd d2 zz e w1 = Ret (res, w2) /\ r_ok res = true) /\
    (forall w1, v_steps C D B S5 N rnd d2 zz w0 w1 -> exists w2, v_steps C D B S5 N rnd d2 zz w1 w2 /\ forall i, (i < N)%nat -> exists out, v_out w2 4 i = Some out) /\
    exists d, (forall w1 i out, v_steps C D B S5 N rnd d2 zz w0 w1 -> (i < N)%nat -> v_out w1 4 i = Some out -> out = sig_json d) /\
      sg_M d = strip0 M /\ ed25519_valid C D S5 (point_enc D (group_pub C N P)) (strip0 M) (sg_sig d).
  Proof.
    intros HR W0. pose proof E as (L & _ & HN & _). pose proof e2e_args as A. split; [|split].
    - intros w1 e St En. eapply C18_every_call_succeeds; eauto.
    - intros w1 St. eapply C18_no_deadlock; eauto.
    - destruct (C18_same_signature C D B S5 HM spare L LD N pids msg kd rf path x cc (keys ids) M payload P A rnd d2 zz HR w0 W0) as (d & Sd).
      exists d. destruct (Sd w0 (vs_refl _ _ _ _ _ _ _ _ _)) as (_ & V & Em & _). split; [|split; [exact Em|rewrite <- Em; exact V]].
      intros w1 i out St Hi Ho. destruct (Sd w1 St) as (S1 & _). exact (S1 i out Hi Ho).
  Qed.

  (** *** the verification key is the public key returned by key generation, moved by an offset that depends only on that
      public key, the chain codes and the path *)
  Theorem C54_child_key i s Y : (i < N)%nat -> save_dec C (b i) = Some s -> sv_ed s = Some Y ->
    exists off : point -> bytes -> bytes -> Z,
      (forall j X, (j < N)%nat -> c_canon C X -> derive_pub C HM X Y (to_be (cc j)) path = Ret (c_add C X (gmul C (off Y (to_be (cc j)) path)))) /\
      group_pub C N P = c_add C Y (gmul C (fold_right Z.add 0 (map (fun j => off Y (to_be (cc j)) path) (seq 0 N)))).
  Proof.
    intros Hi Ds Ey. destruct E as (L & _).
    destruct (C05_output C H N krnd pids roots E w i (b i) R Hi (Hb i Hi)) as (s' & Ds' & _ & _ & _ & P4 & _).
    assert (s' = s) by congruence. subst s'. rewrite P4, base_mul_eq in Ey by exact L. assert (EY : Y = gmul C (zsum N x)) by (unfold zsum; congruence). clear Ey P4 Ds'.
    destruct SI as [_ [_ NQ] Ch _ _].
    exists (fun ded c p => match walk C HM (split slash p) ded 0 c with Ret (Some d) => d | _ => 0 end).
    assert (OnY : on C Y = true) by (rewrite EY; apply gmul_on; exact L).
    assert (W : forall j, (j < N)%nat -> exists d, walk C HM (split slash path) Y 0 (to_be (cc j)) = Ret (Some d) /\
      (forall X, c_canon C X -> derive_pub C HM X Y (to_be (cc j)) path = Ret (c_add C X (gmul C d)))).
    { intros j Hj. specialize (Ch j Hj). rewrite <- EY in Ch.
      destruct (derive_offset C L HM Y (to_be (cc j)) path OnY (no_quote_parts path NQ)) as [_ Bd].
      pose proof (Bd _ (gmul_canon C L (x j))) as B1. rewrite Ch in B1.
      destruct (walk C HM (split slash path) Y 0 (to_be (cc j))) as [[d|]|]; [|discriminate B1..]. exists d. split; [reflexivity|exact Bd]. }
    split.
    - intros j X Hj HX. destruct (W j Hj) as (d & -> & Q). apply Q, HX.
    - unfold group_pub. rewrite EY at 1. unfold zsum.
      assert (G : forall a k, (a + k <= N)%nat -> fold_right (c_add C) (c_id C) (map P (seq a k)) =
        c_add C (gmul C (fold_right Z.add 0 (map x (seq a k)))) (gmul C (fold_right Z.add 0 (map (fun j => match walk C HM (split slash path) Y 0 (to_be (cc j)) with Ret (Some d) => d | _ => 0 end) (seq a k))))).
      { intros a k; revert a; induction k as [|k IH]; intros a Ha; cbn [seq map fold_right].
        - rewrite (gmul_add C L). symmetry. apply (gmul_0 C L).
        - rewrite IH by lia. destruct (W a ltac:(lia)) as (d & Ed & Q). rewrite Ed.
          specialize (Ch a ltac:(lia)). rewrite <- EY, (Q _ (gmul_canon C L (x a))) in Ch. injection Ch as <-.
          rewrite !(gmul_add C L). f_equal. lia. }
      apply G. lia.
  Qed.
End EndToEnd.

(** ** Non-vacuity: two parties on the 88-point group generate keys from roots 05 and 09, save the codes 3 and 7, and sign *)
Definition x2_pids : list bytes := [str "21"; str "22"].
Definition x2_roots (i : nat) : bytes := nth i [str "05"; str "09"] (str "05").
Definition x2_codes : bytes := str "3|7".
Definition x2_party (i : nat) : kparty :=
  match kg_new (Z.of_nat i) 2 x2_pids (x2_roots i) with Ret (_, Some p) => p | _ => ex_party 0 end.
Definition x2_world : kworld := {| w_p := x2_party; w_out := fun _ _ => None |}.
Lemma x2_env : kg_env toy2 toy_hash 2 ex_rnd.
Proof. split; [exact toy2_laws|]. split; [exact ToyCurve.toy_hash_len|]. split; [lia|]. intros i _. cbn. auto. Qed.
Lemma x2_init : k_init 2 x2_pids x2_roots x2_world.
Proof. split; [reflexivity|]. apply two_cases; exists ok0; (split; [|reflexivity]); vm_compute; reflexivity. Qed.
Lemma x2_inputs : sign_inputs toy2 toy_hmac 2 (root_scalar x2_roots) cce se_msg se_refresh se_path [zb 0; zb 65] paye Pe.
Proof.
  destruct e_args as [_ _ _ _ A1 A2 _ A4 A5]. constructor; auto. apply two_cases; [exact e_P0|exact e_P1].
Qed.
Theorem C54_example : exists w b, k_reach toy2 toy_hash 2 ex_rnd x2_pids x2_roots w /\ (forall i, (i < 2)%nat -> w_out w 4 i = Some (b i)) /\
  codes_saved toy2 2 b cce /\ sign_inputs toy2 toy_hmac 2 (root_scalar x2_roots) cce se_msg se_refresh se_path [zb 0; zb 65] paye Pe /\
  (forall i, (i < 2)%nat -> rand_ok toy2 toyD ex_hash 2 (record_N paye) (rec_ped paye) rnde (fun _ => se_draws) (fun _ => se_z) i) /\
  exists w0 w1 d, v_start toy2 toy_hmac go121_spare 2 x2_pids se_msg (fun i => b64_enc (b i)) se_refresh se_path w0 /\
    v_steps toy2 toyD ex_hash se_hash64 2 rnde (fun _ => se_draws) (fun _ => se_z) w0 w1 /\
    v_out w1 4 0 = Some (sig_json d) /\ v_out w1 4 1 = Some (sig_json d) /\
    ed25519_valid toy2 toyD se_hash64 (point_enc toyD (group_pub toy2 2 Pe)) [zb 65] (sg_sig d).
Proof.
  pose proof (kr_init toy2 toy_hash 2 ex_rnd x2_pids x2_roots x2_world x2_init) as R0.
  destruct (C54_codes_reach_output toy2 toy_hash 2 ex_rnd x2_pids x2_roots x2_env x2_world x2_codes R0) as (w & b & R & Q);
    [reflexivity|reflexivity|intros t It; vm_compute in It; destruct It as [<-|[<-|[]]]; vm_compute; discriminate|].
  exists w, b. split; [exact R|]. assert (Hb : forall i, (i < 2)%nat -> w_out w 4 i = Some (b i)) by (intros i Hi; apply Q, Hi). split; [exact Hb|].
  assert (Hc : codes_saved toy2 2 b cce).
  { intros i s Hi Ds. destruct (Q i Hi) as (_ & s' & Ds' & Cs). assert (s' = s) by congruence. subst s'. rewrite Cs. vm_compute. reflexivity. }
  split; [exact Hc|]. split; [exact x2_inputs|]. split; [exact e_rand|].
  assert (Hids : make_ids (Z.of_nat 2) x2_pids = Ret e_ids /\ NoDup (keys e_ids)).
  { split; [exact e_ids_ok|]. change (keys e_ids) with [21; 22]. constructor; [intros [Q1|[]]; discriminate Q1|constructor; [intros []|constructor]]. }
  assert (Hx : forall i, (i < 2)%nat -> root_scalar x2_roots i < 2 ^ 256) by (apply two_cases; reflexivity).
  pose (w0 := {| v_p := fun i => match sg_new toy2 toy_hmac go121_spare (Z.of_nat i) (Z.of_nat 2) x2_pids se_msg (b64_enc (b i)) se_refresh se_path with Ret (_, Some p) => p | _ => se_party0 end;
                 v_out := fun _ _ => None; v_net := fun _ _ _ => None |}).
  assert (W0 : v_start toy2 toy_hmac go121_spare 2 x2_pids se_msg (fun i => b64_enc (b i)) se_refresh se_path w0).
  { split; [|split; reflexivity]. intros i Hi.
    destruct (C54_sign_sessions toy2 toy_hash 2 ex_rnd x2_pids x2_roots x2_env ex_hash se_hash64 toy_hmac go121_spare w b cce e_ids R Hb Hc Hids Hx se_msg se_refresh se_path _ paye Pe x2_inputs i Hi) as (p & Ep).
    unfold w0; cbn [v_p]. rewrite Ep. reflexivity. }
  destruct (C54_keygen_then_sign toy2 toy_hash 2 ex_rnd x2_pids x2_roots x2_env toyD ex_hash se_hash64 toy_hmac go121_spare toyD_laws w b cce e_ids R Hb Hc Hids Hx se_msg se_refresh se_path _ paye Pe x2_inputs rnde (fun _ => se_draws) (fun _ => se_z) w0 e_rand W0) as (_ & ND & d & Sd & _ & V).
  destruct (ND w0 (vs_refl _ _ _ _ _ _ _ _ _)) as (w1 & St & O).
  exists w0, w1, d. split; [exact W0|]. split; [exact St|].
  destruct (O 0%nat ltac:(lia)) as (o0 & E0). destruct (O 1%nat ltac:(lia)) as (o1 & E1).
  split; [rewrite E0, (Sd w1 0%nat o0 St ltac:(lia) E0); reflexivity|]. split; [rewrite E1, (Sd w1 1%nat o1 St ltac:(lia) E1); reflexivity|]. exact V.
Qed.

(** ** On the curve of the program *)
Theorem C54_on_ed25519 H N krnd pids roots B S5 HM spare w b cc ids msg rf path M payload P rnd d2 zz w0 :
  (forall x, length (H x) = 32%nat) -> (0 < N)%nat -> (forall i, (i < N)%nat -> length (kr_u (krnd i)) = 32%nat /\ length (kr_srid (krnd i)) = 32%nat) ->
  k_reach ed25519 H N krnd pids roots w -> (forall i, (i < N)%nat -> w_out w 4 i = Some (b i)) -> codes_saved ed25519 N b cc ->
  make_ids (Z.of_nat N) pids = Ret ids /\ NoDup (keys ids) -> (forall i, (i < N)%nat -> root_scalar roots i < 2 ^ 256) ->
  sign_inputs ed25519 HM N (root_scalar roots) cc msg rf path M payload P ->
  (forall i, (i < N)%nat -> rand_ok ed25519 ed25519lib B N (record_N payload) (rec_ped payload) rnd d2 zz i) ->
  v_start ed25519 HM spare N pids msg (fun i => b64_enc (b i)) rf path w0 ->
  (forall w1, v_steps ed25519 ed25519lib B S5 N rnd d2 zz w0 w1 ->
     exists w2, v_steps ed25519 ed25519lib B S5 N rnd d2 zz w1 w2 /\ forall i, (i < N)%nat -> exists out, v_out w2 4 i = Some out) /\
  exists d, (forall w1 i out, v_steps ed25519 ed25519lib B S5 N rnd d2 zz w0 w1 -> (i < N)%nat -> v_out w1 4 i = Some out -> out = sig_json d) /\
    ed25519_valid ed25519 ed25519lib S5 (point_enc ed25519lib (group_pub ed25519 N P)) (strip0 M) (sg_sig d).
Proof.
  intros HL HN HR R Hb Hc Hids Hx SI HZ W0.
  assert (E : kg_env ed25519 H N krnd) by (split; [exact C52_curve_laws|split; [exact HL|split; [exact HN|exact HR]]]).
  destruct (C54_keygen_then_sign ed25519 H N krnd pids roots E ed25519lib B S5 HM spare C52_encoding_laws w b cc ids R Hb Hc Hids Hx msg rf path M payload P SI rnd d2 zz w0 HZ W0)
    as (_ & Q1 & d & Q2 & _ & Q3).
  split; [exact Q1|]. exists d. split; [exact Q2|exact Q3].
Qed.
