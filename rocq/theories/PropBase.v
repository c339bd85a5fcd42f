(** PropBase.v -- C04 party numbering, C24 hash framing, C25 Schnorr proofs, C35/C36 wire and text encodings, C37 delivery order. *)
From Verif Require Import Base BigInt HashFrame Text Wire Messages PartyID Curve Schnorr ToyCurve Save Keygen KeygenWorld KeygenAdv RangeProofs Onsign OnsignHist.
From Coq Require Import Permutation Sorted.

(** ** C04 *)
(** the sorted list: an ascending permutation of the ids (only Index changes), Index = start + position *)
Theorem C04_sorted start l :
  StronglySorted (fun a b => key_int a <= key_int b) (sort_party_ids start l) /\
  Permutation (map (fun p => (pid_id p, pid_moniker p, pid_key p)) (sort_party_ids start l)) (map (fun p => (pid_id p, pid_moniker p, pid_key p)) l) /\
  (forall i p, nth_error (sort_party_ids start l) i = Some p -> pid_index p = start + Z.of_nat i).
Proof.
  assert (A : forall l s, map (fun p => (pid_id p, pid_moniker p, pid_key p)) (assign_index s l) = map (fun p => (pid_id p, pid_moniker p, pid_key p)) l).
  { clear. induction l as [|p l IH]; intro s; cbn; [reflexivity|]. rewrite IH. reflexivity. }
  unfold sort_party_ids. split; [|split].
  - pose proof (sort_asc l) as S. unfold asc in S. revert start. induction S as [|p l' S IH F]; intro start; cbn [assign_index]; constructor; auto.
    apply Forall_forall. intros q Hq.
    assert (In (key_int q) (keys l')) as Hk by (rewrite <- (assign_index_keys (start + 1) l'); apply in_map; exact Hq).
    apply in_map_iff in Hk. destruct Hk as (q' & <- & Hq'). rewrite Forall_forall in F. apply F. exact Hq'.
  - rewrite A. apply Permutation_map. apply sort_perm.
  - intros i p E. exact (proj1 (assign_index_nth _ _ _ _ E)).
Qed.
(** a party built by NewPartyID is not valid until it has been sorted into a list: its index is -1, its key is the number
    given (its absolute value: the sign is lost), and sorting a list of such parties makes every one of them valid *)
Theorem C04_new_party_id id moniker k : new_party_id id moniker None = Panic /\
  (exists p, new_party_id id moniker (Some k) = Ret p /\ key_int p = Z.abs k /\ pid_id p = id /\ pid_moniker p = moniker /\
    pid_index p = -1 /\ pid_valid p = false) /\
  (forall start l p, 0 <= start -> In p (sort_party_ids start l) -> pid_valid p = true).
Proof.
  split; [reflexivity|]. split.
  - eexists. split; [reflexivity|]. split; [|split; [reflexivity|split; [reflexivity|split; reflexivity]]].
    unfold key_int. cbn [pid_key]. apply of_be_to_be.
  - intros start l p S I. destruct (In_nth_error _ _ I) as [i E]. apply C04_sorted in E. unfold pid_valid. lia.
Qed.

(** for distinct keys, whatever order they are listed in, the result is the same list *)
Theorem C04_order_irrelevant start l1 l2 : Permutation l1 l2 -> NoDup (map key_int l1) -> sort_party_ids start l1 = sort_party_ids start l2.
Proof. apply sort_party_ids_order_irrelevant. Qed.
(** at the API: two callers that list the same ids (distinct or not) in different orders agree which id is party number i *)
Theorem C04_api_order_irrelevant pids pids' ids : Permutation pids pids' -> make_ids (Z.of_nat (length pids)) pids = Ret ids ->
  exists ids', make_ids (Z.of_nat (length pids')) pids' = Ret ids' /\ map pid_key ids' = map pid_key ids /\ map pid_index ids' = map pid_index ids.
Proof.
  assert (B : forall l i ps, build_ids i (length l) l = Ret ps -> Forall (fun s => parse_int 10 s <> None) l /\
      map pid_key ps = map (fun s => match parse_int 10 s with Some k => to_be k | None => [] end) l).
  { clear. induction l as [|s l IH]; intros i ps E; cbn [length build_ids] in E.
    - inversion E; subst. split; [constructor|reflexivity].
    - destruct (parse_int 10 s) as [k|] eqn:P; cbn [new_party_id obind] in E; [|discriminate].
      destruct (build_ids _ _ l) as [qs|] eqn:Q; cbn [obind] in E; [|discriminate]. inversion E; subst. destruct (IH _ _ Q) as [F M].
      split; [constructor; [congruence|exact F]|]. cbn [map]. rewrite P, M. reflexivity. }
  assert (B' : forall l i, Forall (fun s => parse_int 10 s <> None) l -> exists ps, build_ids i (length l) l = Ret ps).
  { clear. induction l as [|s l IH]; intros i F; cbn [length build_ids]; [eauto|]. inversion F; subst.
    destruct (parse_int 10 s) as [k|]; [|congruence]. cbn [new_party_id obind]. destruct (IH (i + 1) ltac:(auto)) as (ps & ->). cbn [obind]. eauto. }
  assert (K : forall s l, map pid_key (sort_party_ids s l) = map to_be (sort_z (keys l)) \/ ~ Forall (fun p => pid_key p = to_be (key_int p)) l).
  { intros s l. destruct (Forall_dec (fun p => pid_key p = to_be (key_int p)) ltac:(intro; apply list_eq_dec; apply byte_eq_dec) l) as [F|F]; [left|right; exact F].
    rewrite <- (keys_sort_party_ids s). unfold keys. rewrite map_map. apply map_ext_in. intros p Hp.
    assert (In (pid_id p, pid_moniker p, pid_key p) (map (fun p => (pid_id p, pid_moniker p, pid_key p)) l)) as I.
    { eapply Permutation_in; [apply (C04_sorted s l)|]. exact (in_map (fun p => (pid_id p, pid_moniker p, pid_key p)) _ _ Hp). }
    apply in_map_iff in I. destruct I as (q & E & Hq). rewrite Forall_forall in F. specialize (F q Hq).
    assert (pid_key q = pid_key p) by congruence. unfold key_int in *. congruence. }
  assert (CK : forall l i ps, build_ids i (length l) l = Ret ps -> Forall (fun p => pid_key p = to_be (key_int p)) ps).
  { clear. induction l as [|s l IH]; intros i ps E; cbn [length build_ids] in E; [inversion E; constructor|].
    destruct (parse_int 10 s) as [k|]; cbn [new_party_id obind] in E; [|discriminate].
    destruct (build_ids _ _ l) as [qs|] eqn:Q; cbn [obind] in E; [|discriminate]. inversion E; subst. constructor; [|eapply IH; eauto].
    unfold key_int; cbn [pid_key]. rewrite of_be_to_be. destruct (Z.le_ge_cases 0 k); [rewrite Z.abs_eq by lia; reflexivity|]. rewrite Z.abs_neq by lia. unfold to_be. rewrite Z.abs_opp. reflexivity. }
  assert (IX : forall s l, map pid_index (sort_party_ids s l) = map (fun i => s + Z.of_nat i) (seq 0 (length l))).
  { clear. intros s l. unfold sort_party_ids. rewrite <- (Permutation_length (sort_perm l)). generalize (sort_pids l). clear l.
    intro l. revert s. induction l as [|p l IH]; intro s; [reflexivity|]. cbn [assign_index map length seq]. rewrite IH. cbn [set_index pid_index].
    f_equal; [lia|]. rewrite <- seq_shift, map_map. apply map_ext. intro. lia. }
  intros HP E. unfold make_ids in *. destruct (Z.ltb_spec (Z.of_nat (length pids)) 0); [lia|]. destruct (Z.ltb_spec (Z.of_nat (length pids')) 0); [lia|].
  rewrite Nat2Z.id in *. destruct (build_ids 0 _ pids) as [ps|] eqn:P1; cbn [obind] in E; [|discriminate]. inversion E; subst. clear E.
  destruct (B _ _ _ P1) as [F1 M1]. destruct (B' pids' 0) as (ps' & P2).
  { eapply Permutation_Forall; eauto. }
  rewrite P2. cbn [obind]. eexists. split; [reflexivity|]. destruct (B _ _ _ P2) as [_ M2].
  destruct (K 0 ps) as [K1|K1]; [|exfalso; apply K1; eapply CK; eauto]. destruct (K 0 ps') as [K2|K2]; [|exfalso; apply K2; eapply CK; eauto].
  split.
  - rewrite K1, K2. f_equal. apply sort_z_unique. unfold keys.
    replace (map key_int ps') with (map of_be (map pid_key ps')) by (rewrite map_map; reflexivity).
    replace (map key_int ps) with (map of_be (map pid_key ps)) by (rewrite map_map; reflexivity).
    rewrite M1, M2. apply Permutation_map, Permutation_map. symmetry. exact HP.
  - rewrite !IX. rewrite (build_ids_length _ _ _ _ P1), (build_ids_length _ _ _ _ P2). rewrite (Permutation_length HP). reflexivity.
Qed.
Theorem C04_example : exists ids ids', make_ids 3 [str "30"; str "4"; str "100"] = Ret ids /\ make_ids 3 [str "100"; str "30"; str "4"] = Ret ids' /\
  map key_int ids = [4; 30; 100] /\ map key_int ids' = [4; 30; 100] /\ map pid_index ids = [0; 1; 2].
Proof. do 2 eexists. repeat split; reflexivity. Qed.
(** only the first partyCount ids are read: a longer list is not rejected, and then its order matters *)
Theorem C04_extra_ids_refuted : exists ids ids', make_ids 1 [str "5"; str "3"] = Ret ids /\ make_ids 1 [str "3"; str "5"] = Ret ids' /\
  map key_int ids <> map key_int ids'.
Proof. do 2 eexists. split; [reflexivity|]. split; [reflexivity|]. discriminate. Qed.

(** Exclude keeps exactly the ids with another key, in their order; FindByKey returns an id of the list with the key asked for, the first one *)
Theorem C04_exclude l e :
  (forall p, In p (exclude l e) <-> In p l /\ key_int p <> key_int e) /\
  (forall l1 l2, l = l1 ++ l2 -> exclude l e = exclude l1 e ++ exclude l2 e) /\
  (NoDup (map key_int l) -> In e l -> length l = S (length (exclude l e))).
Proof.
  split; [intro p; apply exclude_spec|]. split.
  - intros l1 l2 ->. unfold exclude. rewrite filter_app. reflexivity.
  - induction l as [|q l IH]; [intros _ []|]. cbn [map]. intros ND HI. inversion ND as [|? ? NI ND']; subst. unfold exclude. cbn [filter].
    destruct HI as [->|HI].
    + rewrite Z.eqb_refl. cbn [negb length]. f_equal. assert (F : forall l', ~ In (key_int e) (map key_int l') -> filter (fun p => negb (key_int p =? key_int e)) l' = l').
      { induction l' as [|a l' IH']; intro HN; [reflexivity|]. cbn [filter map] in *. destruct (Z.eqb_spec (key_int a) (key_int e)) as [Q|Q]; [exfalso; apply HN; left; exact Q|]. cbn [negb]. f_equal. apply IH'. intro; apply HN; right; assumption. }
      rewrite F by exact NI. reflexivity.
    + destruct (Z.eqb_spec (key_int q) (key_int e)) as [Q|Q]; [exfalso; apply NI; rewrite Q; apply in_map; exact HI|]. cbn [negb length]. f_equal. apply IH; assumption.
Qed.
Theorem C04_find_by_key l k :
  (find_by_key l k = None <-> ~ In k (map key_int l)) /\
  (forall p, find_by_key l k = Some p <-> exists l1 l2, l = l1 ++ p :: l2 /\ key_int p = k /\ ~ In k (map key_int l1)).
Proof.
  split; [apply find_by_key_none|]. intro p. unfold find_by_key. split.
  - induction l as [|q l IH]; cbn [find]; [discriminate|]. destruct (Z.eqb_spec (key_int q) k) as [Q|Q]; intro E.
    + assert (q = p) by congruence. subst q. exists [], l. split; [reflexivity|]. split; [exact Q|intros []].
    + destruct (IH E) as (l1 & l2 & -> & K & NI). exists (q :: l1), l2. split; [reflexivity|]. split; [exact K|]. cbn [map]. intros [H|H]; [exact (Q H)|exact (NI H)].
  - intros (l1 & l2 & -> & K & NI). induction l1 as [|q l1 IH]; cbn [app find].
    + rewrite K, Z.eqb_refl. reflexivity.
    + cbn [map] in NI. destruct (Z.eqb_spec (key_int q) k) as [Q|Q]; [exfalso; apply NI; left; exact Q|]. apply IH. intro; apply NI; right; assumption.
Qed.

(** ** C24 *)
(** the framed input determines the list of parts (any lengths and counts below 2^63) *)
Theorem C24_frame_injective xs ys : Z.of_nat (length xs) < 2 ^ 63 -> Z.of_nat (length ys) < 2 ^ 63 ->
  Forall (fun b : bytes => Z.of_nat (length b) < 2 ^ 63) xs -> Forall (fun b : bytes => Z.of_nat (length b) < 2 ^ 63) ys ->
  frame xs = frame ys -> xs = ys.
Proof. intros. apply frame_inj; [split; assumption|split; assumption|assumption]. Qed.
(** the exact bytes that are hashed: count, then every part followed by '$' and its length; counts and lengths are 8 bytes little endian *)
Lemma le64_spec n : 0 <= n < 2 ^ 64 -> length (le64 n) = 8%nat /\ of_le (le64 n) = n.
Proof. intro R. unfold le64. split; [apply le_fixed_length|]. apply of_le_le_fixed_small. change (256 ^ Z.of_nat 8) with (2 ^ 64). exact R. Qed.
Theorem C24_layout xs : parts_ok xs -> exists c ls, length c = 8%nat /\ of_le c = Z.of_nat (length xs) /\
  Forall2 (fun (x l : bytes) => length l = 8%nat /\ of_le l = Z.of_nat (length x)) xs ls /\ frame xs = c ++ concat (map (fun '(x, l) => x ++ str "$" ++ l) (combine xs ls)).
Proof.
  intros [L F]. exists (le64 (Z.of_nat (length xs))), (map (fun x => le64 (Z.of_nat (length x))) xs). destruct (le64_spec (Z.of_nat (length xs))) as [A B]; [lia|]. split; [exact A|]. split; [exact B|]. clear L A B. split.
  - induction xs as [|x xs IH]; [constructor|]. inversion F as [|? ? FX FR]. cbn [map]. constructor; [apply le64_spec; lia|apply IH, FR].
  - unfold frame. f_equal. f_equal. clear F. induction xs as [|x xs IH]; [reflexivity|]. cbn [map combine]. rewrite IH. reflexivity.
Qed.
(** the tagged hash exactly: the tag's digest twice, then the framed numbers; a nil number counts as 0, an empty list gives nil *)
Theorem C24_tagged_layout H tag (xs : list (option Z)) : sha_tagged H tag [] = None /\ (xs <> [] ->
  sha_tagged H tag xs = Some (of_be (H (H (frame [tag]) ++ H (frame [tag]) ++ frame (map (fun o => match o with Some v => to_be v | None => [] end) xs))))).
Proof.
  split; [reflexivity|]. intro N. unfold sha_tagged. destruct xs as [|x xs]; [congruence|]. reflexivity.
Qed.
(** equal digests of different lists exhibit a hash collision *)
Theorem C24_bytes_digest H xs ys : parts_ok xs -> parts_ok ys -> sha_parts H xs = sha_parts H ys -> xs <> [] \/ ys <> [] ->
  xs = ys \/ (frame xs <> frame ys /\ H (frame xs) = H (frame ys)).
Proof. apply sha_parts_inj. Qed.
Theorem C24_ints_digest H xs ys : (forall a b, length (H a) = length (H b)) -> parts_ok (map to_be xs) -> parts_ok (map to_be ys) ->
  Forall (fun z => 0 <= z) xs -> Forall (fun z => 0 <= z) ys -> sha_ints H xs = sha_ints H ys -> xs <> [] \/ ys <> [] ->
  xs = ys \/ (frame (map to_be xs) <> frame (map to_be ys) /\ H (frame (map to_be xs)) = H (frame (map to_be ys))).
Proof. apply sha_ints_inj. Qed.
Theorem C24_tagged_digest H tag tag' xs ys : (forall a b, length (H a) = length (H b)) -> parts_ok [tag] -> parts_ok [tag'] ->
  parts_ok (map to_be xs) -> parts_ok (map to_be ys) -> Forall (fun z => 0 <= z) xs -> Forall (fun z => 0 <= z) ys ->
  xs <> [] -> ys <> [] -> sha_tagged H tag (map Some xs) = sha_tagged H tag' (map Some ys) ->
  (tag = tag' /\ xs = ys) \/ exists a b, a <> b /\ H a = H b.
Proof. apply sha_tagged_inj. Qed.
(** REFUTED for negative integers: the sign of an element is not hashed, whatever the hash function *)
Theorem C24_sign_not_hashed_refuted H : sha_ints H [5] = sha_ints H [-5] /\ sha_tagged H (str "t") [Some 5] = sha_tagged H (str "t") [Some (-5)].
Proof. split; reflexivity. Qed.
Theorem C24_example : frame [str "a"; str "bc"] <> frame [str "ab"; str "c"] /\ frame [str "a$"; str ""] <> frame [str "a"; str "$"] /\
  parts_ok [str "a"; str "bc"] /\ sha_parts (fun b => b) [str "a"; str "bc"] <> sha_parts (fun b => b) [str "ab"; str "c"].
Proof. repeat split; try discriminate; repeat constructor; discriminate. Qed.

(** ** C25 *)
Section C25.
  Variable C : curve.
  Hypothesis L : curve_laws C.
  Variable H : bytes -> bytes.
  Notation n := (c_n C).
  Notation G := (gmul C).
  (** honest proofs verify, for every secret, nonce and challenge *)
  Theorem C25_complete tau c x : sch_verify C (G tau) (G x) c (sch_prove n tau c x) = Ret true.
  Proof. apply sch_complete; exact L. Qed.
  (** exactly one response (mod the order) verifies *)
  Theorem C25_response_unique tau x c z : sch_verify C (G tau) (G x) c z = Ret true <-> z mod n = (tau + c * x) mod n.
  Proof. apply sch_verify_iff; exact L. Qed.
  (** two accepting answers to different challenges for one commitment determine the secret *)
  Theorem C25_extract tau x c c' z z' : sch_verify C (G tau) (G x) c z = Ret true -> sch_verify C (G tau) (G x) c' z' = Ret true -> c mod n <> c' mod n ->
    exists w, (w * (c - c')) mod n = 1 /\ x mod n = (w * (z - z')) mod n.
  Proof.
    intros V V' Hc. pose proof (n_gt1 C L). destruct (inv_mod C L (c - c')) as (w & _ & Ew).
    - intro Q. apply Hc. apply Z.mod_divide in Q; [|lia]. destruct Q as [q Q]. replace c with (c' + q * n) by lia. apply Z_mod_plus_full.
    - exists w. split; [exact Ew|]. exact (sch_extract_scalar C L tau x c c' z z' V V' Hc w Ew).
  Qed.
  (** for arbitrary curve points presented by a dishonest prover: a discrete logarithm up to the cofactor *)
  Theorem C25_extract_any_point A X c c' z z' : on C A = true -> on C X = true ->
    sch_verify C A X c z = Ret true -> sch_verify C A X c' z' = Ret true -> c mod n <> c' mod n -> exists x, c_smul C X 8 = G (8 * x).
  Proof. apply sch_special_sound; exact L. Qed.
  (** the non-interactive proofs of schnorr_proof.go *)
  Theorem C25_zk_complete session x a : exists pf, zk_new C H session x (G x) a = Ret (Some pf) /\ zk_verify C H session (G x) pf = Ret true.
  Proof. apply zk_complete; exact L. Qed.
  Theorem C25_zkv_complete session r s l a b :
    exists pf, zkv_new C H session (G (s * r + l)) (G r) s l a b = Ret (Some pf) /\ zkv_verify C H session (G (s * r + l)) (G r) pf = Ret true.
  Proof. apply (zkv_complete C L H). Qed.
  (** the provers refuse statements off the curve *)
  Theorem C25_refuses_off_curve session x X a V R s l a' b : (on C X = false -> zk_new C H session x X a = Ret None) /\
    (on C V = false \/ on C R = false -> zkv_new C H session V R s l a' b = Ret None).
  Proof. split; [intro E; unfold zk_new; rewrite E; reflexivity|]. intro E. unfold zkv_new. destruct E as [-> | ->]; [reflexivity|rewrite andb_false_r; reflexivity]. Qed.
  (** what an accepted proof means, for any points and any proof values: the verification equation holds for a challenge that is
      the hash of the session, the statement and the commitment, reduced modulo the order; a two-witness proof's commitment is on the curve *)
  Theorem C25_zk_accepted session X alpha t : on C X = true -> on C alpha = true -> zk_verify C H session X (alpha, t) = Ret true ->
    exists e, sha_tagged H session (map Some [px X; py X; px (c_g C); py (c_g C); px alpha; py alpha]) = Some e /\
      c_add C alpha (c_smul C X (e mod n)) = G t.
  Proof.
    intros HX HA. unfold zk_verify, zk_challenge. cbn [fst snd].
    destruct (sha_tagged H session _) as [e|] eqn:E; cbn [reject_sample obind]; [|discriminate]. rewrite (sch_verify_eq C L) by assumption.
    intro V. exists e. split; [reflexivity|]. match type of V with Ret ?b = _ => assert (Q : b = true) by congruence end. apply pt_eqb_eq in Q. rewrite Z.mod_mod in Q by (pose proof (n_gt1 C L); lia). exact Q.
  Qed.
  Theorem C25_zkv_accepted session V R alpha t u : on C V = true -> on C R = true -> zkv_verify C H session V R (alpha, t, u) = Ret true ->
    on C alpha = true /\ exists e, sha_tagged H session (map Some [px V; py V; px R; py R; px (c_g C); py (c_g C); px alpha; py alpha]) = Some e /\
      c_add C (c_smul C R (t mod n)) (G u) = c_add C alpha (c_smul C V (e mod n)).
  Proof. intros HV HR. apply (zkv_sound_eq C L H session V R alpha t u HV HR). Qed.
  (** two accepting two-witness proofs with one commitment and different challenges give V = s R + l G with known s, l *)
  Theorem C25_zkv_extract r v al c c' t u t' u' : 
    c_add C (c_smul C (G r) (t mod n)) (G u) = c_add C (G al) (c_smul C (G v) (c mod n)) ->
    c_add C (c_smul C (G r) (t' mod n)) (G u') = c_add C (G al) (c_smul C (G v) (c' mod n)) -> c mod n <> c' mod n ->
    exists w, (w * (c - c')) mod n = 1 /\ v mod n = (w * (t - t') * r + w * (u - u')) mod n.
  Proof.
    intros E E' Hc. pose proof (n_gt1 C L) as Hn. pose proof (fun k => Z.mod_pos_bound k n ltac:(lia)) as M.
    rewrite (gmul_mul C L) in E, E' by apply M. rewrite (gmul_mul C L) in E, E' by apply M.
    rewrite !(gmul_add C L) in E, E'. apply (gmul_inj C L) in E. apply (gmul_inj C L) in E'.
    destruct (inv_mod C L (c - c')) as (w & _ & Ew).
    - intro Q. apply Hc. clear E E' Hc M. apply Z.mod_divide in Q; [|lia]. destruct Q as [q Q]. replace c with (c' + q * n) by lia. apply Z_mod_plus_full.
    - exists w. split; [exact Ew|].
      assert (X : ((c - c') * v) mod n = ((t - t') * r + (u - u')) mod n).
      { assert (Y : ((t mod n * r + u) - (t' mod n * r + u')) mod n = ((al + c mod n * v) - (al + c' mod n * v)) mod n).
        { rewrite Zminus_mod. rewrite E, E'. rewrite <- Zminus_mod. reflexivity. }
        replace ((c - c') * v) with (c * v - c' * v) by lia. replace ((t - t') * r + (u - u')) with ((t * r + u) - (t' * r + u')) by lia.
        rewrite (Zminus_mod (c * v)), (Zminus_mod (t * r + u)). rewrite (Zplus_mod (t * r)), (Zplus_mod (t' * r)).
        rewrite <- (Z.mul_mod_idemp_l t r), <- (Z.mul_mod_idemp_l t' r), <- (Z.mul_mod_idemp_l c v), <- (Z.mul_mod_idemp_l c' v) by lia.
        rewrite <- !Zplus_mod, <- !Zminus_mod. rewrite Y. f_equal. lia. }
      replace (w * (t - t') * r + w * (u - u')) with (w * ((t - t') * r + (u - u'))) by lia.
      rewrite <- Z.mul_mod_idemp_r, <- X, Z.mul_mod_idemp_r by lia.
      replace (w * ((c - c') * v)) with (w * (c - c') * v) by lia. rewrite <- Z.mul_mod_idemp_l, Ew, Z.mul_1_l by lia. reflexivity.
  Qed.
End C25.
Theorem C25_example : curve_laws toy /\ sch_verify toy (gmul toy 3) (gmul toy 7) 2 (sch_prove (c_n toy) 3 2 7) = Ret true /\
  sch_verify toy (gmul toy 3) (gmul toy 7) 5 (sch_prove (c_n toy) 3 5 7) = Ret true /\ sch_verify toy (gmul toy 3) (gmul toy 7) 5 (sch_prove (c_n toy) 3 2 7) = Ret false /\
  2 mod c_n toy <> 5 mod c_n toy.
Proof. split; [exact toy_laws|]. repeat split; try reflexivity. discriminate. Qed.

(** ** C35 *)
Theorem C35_roundtrip c : content_ok c -> parse_wire (wire_bytes c) = Some c.
Proof. apply parse_wire_bytes. Qed.
(** in particular a message never parses as another type, and different messages have different wire bytes *)
Theorem C35_type_preserved c c' : content_ok c -> parse_wire (wire_bytes c) = Some c' -> name_of c' = name_of c.
Proof. intros Hc E. rewrite (parse_wire_bytes c Hc) in E. injection E as <-. reflexivity. Qed.
Theorem C35_injective c c' : content_ok c -> content_ok c' -> wire_bytes c = wire_bytes c' -> c = c'.
Proof. intros Hc Hc' E. pose proof (parse_wire_bytes c Hc) as P. rewrite E, (parse_wire_bytes c' Hc') in P. congruence. Qed.
(** the sub-messages of the signing rounds *)
Theorem C35_enc_proof_roundtrip m : Forall small [em_salt m; em_S m; em_A m; em_C m; em_z1 m; em_z2 m; em_z3 m] ->
  utf8_valid (em_z1 m) = true -> utf8_valid (em_z3 m) = true -> encmsg_dec (encmsg_enc m) = Some m.
Proof. apply encmsg_roundtrip. Qed.
Theorem C35_log_proof_roundtrip m : Forall small [lm_salt m; lm_S m; lm_A m; lm_Yx m; lm_Yy m; lm_D m; lm_z1 m; lm_z2 m; lm_z3 m] ->
  utf8_valid (lm_z1 m) = true -> utf8_valid (lm_z3 m) = true -> logmsg_dec (logmsg_enc m) = Some m.
Proof. apply logmsg_roundtrip. Qed.
(** every message whose byte fields together fit in 2^40 bytes qualifies *)
Theorem C35_sizes v a b c : tiny v -> tiny a -> tiny b -> tiny c ->
  content_ok (CKg1 v) /\ content_ok (CKg3 v [] []) /\ content_ok (CS11 v) /\ content_ok (CS12 v) /\ content_ok (CS2 a b c) /\ content_ok (CS3 v).
Proof. intros. repeat split; first [apply ok_kg1|apply ok_kg3|apply ok_s11|apply ok_s12|apply ok_s2|apply ok_s3]; assumption. Qed.
Theorem C35_example : parse_wire (wire_bytes (CS2 (str "x") [] (str "proof"))) = Some (CS2 (str "x") [] (str "proof")) /\
  parse_wire (wire_bytes (CS3 (str "x"))) <> parse_wire (wire_bytes (CS11 (str "x"))) /\ parse_wire [] = None /\ parse_wire (str "junk") = None.
Proof. repeat split; try reflexivity. discriminate. Qed.

(** ** C36 *)
Theorem C36_base64_roundtrip b : b64_dec (b64_enc b) = Some b.
Proof. apply b64_roundtrip. Qed.
Theorem C36_hex_roundtrip b : hex_dec (hex_enc b) = Some b.
Proof. apply hex_roundtrip. Qed.
(** the accepted bytes are stored unchanged *)
Theorem C36_keygen_accept_stores r from w p res p' : (1 <= r <= 3)%nat -> kg_accept r from (b64_enc w) p = Ret (res, p') ->
  0 <= from /\ nth_error (k_slots r p') (Z.to_nat from) = Some w.
Proof.
  intros Hr. unfold kg_accept. rewrite b64_roundtrip. destruct (store _ _ _) as [sl|] eqn:S; cbn [obind]; [|discriminate].
  apply store_Ret in S. destruct S as [B ->]. intro E.
  assert (p' = k_set_slots r (upd (Z.to_nat from) w (k_slots r p)) p) as ->.
  { destruct (parse_wire w); [destruct (kg_type_ok r c)|]; congruence. }
  split; [lia|]. replace (k_slots r (k_set_slots r (upd (Z.to_nat from) w (k_slots r p)) p)) with (upd (Z.to_nat from) w (k_slots r p)) by (destruct r as [|[|[|[|r]]]]; try lia; reflexivity).
  apply nth_error_upd_same. lia.
Qed.
Theorem C36_sign_accept_stores C D B S5 r from c p res p' k : content_ok c ->
  match r, c with 1%nat, CS11 _ => k = K11 | 1%nat, CS12 _ => k = K12 | 2%nat, CS2 _ _ _ => k = K2 | 3%nat, CS3 _ => k = K3 | _, _ => False end ->
  sop_run C D B S5 (SAcc r from (b64_enc (wire_bytes c))) p = Ret (res, p') ->
  r_ok res = true /\ 0 <= from /\ nth_error (s_slots k p') (Z.to_nat from) = Some (wire_bytes c).
Proof.
  intros Hc Hk. rewrite accept_eq.
  assert (E1 : acc_effect r (b64_enc (wire_bytes c)) = Some (k, wire_bytes c)).
  { unfold acc_effect. rewrite b64_roundtrip, (parse_wire_bytes c Hc). destruct r as [|[|[|[|r]]]], c; try contradiction; subst k; reflexivity. }
  assert (E2 : acc_err r (b64_enc (wire_bytes c)) = None).
  { unfold acc_err. rewrite b64_roundtrip, (parse_wire_bytes c Hc). destruct r as [|[|[|[|r]]]], c; try contradiction; reflexivity. }
  rewrite E1, E2. destruct (store _ _ _) as [sl|] eqn:S; cbn [obind]; [|discriminate]. apply store_Ret in S. destruct S as [B1 ->].
  intro E. injection E as <- <-. split; [reflexivity|]. split; [lia|]. rewrite s_slots_set.
  destruct (skind_eqb_spec k k); [|congruence]. apply nth_error_upd_same. lia.
Qed.
Theorem C36_example : b64_enc (str "ab") = str "YWI=" /\ b64_dec (str "YWI=") = Some (str "ab") /\ b64_dec (str "YW!=") = None /\ hex_dec (str "00aF") = Some [zb 0; zb 175].
Proof. repeat split; reflexivity. Qed.

(** ** C37 *)
(** deliveries made one after the other: each with its result, and the final session *)
Fixpoint deliver {A S : Type} (step : A -> S -> outcome (res * S)) (l : list A) (s : S) : outcome (list (A * res) * S) :=
  match l with
  | [] => Ret ([], s)
  | a :: l' => let! (r, s1) := step a s in let! (h, s2) := deliver step l' s1 in Ret ((a, r) :: h, s2)
  end.
Definition commute {A S : Type} (step : A -> S -> outcome (res * S)) (a b : A) : Prop := forall s ra s1 rb s2,
  step a s = Ret (ra, s1) -> step b s1 = Ret (rb, s2) -> exists s1', step b s = Ret (rb, s1') /\ step a s1' = Ret (ra, s2).
Lemma deliver_perm {A S} (step : A -> S -> outcome (res * S)) l l' : Permutation l l' -> (forall a b, In a l -> In b l -> commute step a b) ->
  forall s h s', deliver step l s = Ret (h, s') -> exists h', deliver step l' s = Ret (h', s') /\ Permutation h h'.
Proof.
  induction 1 as [|a l l' HP IH|a b l|l1 l2 l3 H1 IH1 H2 IH2]; intros HC s h s' E.
  - exists h. split; [exact E|reflexivity].
  - cbn [deliver] in *. destruct (step a s) as [[r s1]|]; cbn [obind] in *; [|discriminate].
    destruct (deliver step l s1) as [[h1 s2]|] eqn:D; cbn [obind] in *; [|discriminate]. inversion E; subst.
    destruct (IH (fun x y Hx Hy => HC x y (or_intror Hx) (or_intror Hy)) _ _ _ D) as (h' & -> & P). cbn [obind]. eexists. split; [reflexivity|constructor; exact P].
  - cbn [deliver] in *. destruct (step b s) as [[r s1]|] eqn:Eb; cbn [obind] in *; [|discriminate].
    destruct (step a s1) as [[r1 s2]|] eqn:Ea; cbn [obind] in *; [|discriminate].
    destruct (deliver step l s2) as [[h1 s3]|] eqn:D; cbn [obind] in *; [|discriminate]. inversion E; subst.
    destruct (HC b a (or_introl eq_refl) (or_intror (or_introl eq_refl)) _ _ _ _ _ Eb Ea) as (s1' & Ea' & Eb').
    rewrite Ea'. cbn [obind]. rewrite Eb'. cbn [obind]. rewrite D. cbn [obind]. eexists. split; [reflexivity|apply perm_swap].
  - destruct (IH1 HC _ _ _ E) as (h1 & D1 & P1).
    destruct (IH2 (fun x y Hx Hy => HC x y (Permutation_in _ (Permutation_sym H1) Hx) (Permutation_in _ (Permutation_sym H1) Hy)) _ _ _ D1) as (h2 & D2 & P2).
    exists h2. split; [exact D2|]. rewrite P1. exact P2.
Qed.

(** keygen: a delivery is (round, sender, text) *)
Definition kg_deliver := deliver (fun (a : nat * Z * bytes) p => kg_accept (fst (fst a)) (snd (fst a)) (snd a) p).
Lemma k_slots_set r r' v p : (1 <= r <= 3)%nat -> (1 <= r' <= 3)%nat -> k_slots r (k_set_slots r' v p) = if (r' =? r)%nat then v else k_slots r p.
Proof. intros. destruct r as [|[|[|[|r]]]]; try lia; destruct r' as [|[|[|[|r']]]]; try lia; reflexivity. Qed.
Lemma k_set_set_diff r r' v v' p : (1 <= r <= 3)%nat -> (1 <= r' <= 3)%nat -> r <> r' -> k_set_slots r v (k_set_slots r' v' p) = k_set_slots r' v' (k_set_slots r v p).
Proof. intros. destruct r as [|[|[|[|r]]]]; try lia; destruct r' as [|[|[|[|r']]]]; try lia; reflexivity. Qed.
Lemma k_set_set_same r v v' p : (1 <= r <= 3)%nat -> k_set_slots r v (k_set_slots r v' p) = k_set_slots r v p.
Proof. intros. destruct r as [|[|[|[|r]]]]; try lia; reflexivity. Qed.
(** the effect of an accept that returns *)
Lemma kg_accept_inv r from msg p res p' : kg_accept r from msg p = Ret (res, p') ->
  (b64_dec msg = None /\ res = fail EB64 /\ p' = p) \/
  (exists w, b64_dec msg = Some w /\ 0 <= from < Z.of_nat (length (k_slots r p)) /\ p' = k_set_slots r (upd (Z.to_nat from) w (k_slots r p)) p /\
     (parse_wire w = None /\ res = fail EParse \/ exists c, parse_wire w = Some c /\ kg_type_ok r c = true /\ res = ok0)).
Proof.
  unfold kg_accept. destruct (b64_dec msg) as [w|]; [|intro E; injection E as <- <-; auto].
  destruct (store _ _ _) as [sl|] eqn:S; cbn [obind]; [|discriminate]. apply store_Ret in S. destruct S as [B ->].
  intro E. right. exists w. split; [reflexivity|]. split; [exact B|].
  destruct (parse_wire w) as [c|]; [destruct (kg_type_ok r c) eqn:K; [|discriminate]|]; injection E as <- <-; (split; [reflexivity|]); [right; eauto|left; auto].
Qed.
Lemma kg_accept_ret r from msg p w res : b64_dec msg = Some w -> 0 <= from < Z.of_nat (length (k_slots r p)) ->
  (parse_wire w = None /\ res = fail EParse \/ exists c, parse_wire w = Some c /\ kg_type_ok r c = true /\ res = ok0) ->
  kg_accept r from msg p = Ret (res, k_set_slots r (upd (Z.to_nat from) w (k_slots r p)) p).
Proof.
  intros E B Hr. unfold kg_accept. rewrite E. assert (S : store (k_slots r p) from w = Ret (upd (Z.to_nat from) w (k_slots r p))) by (apply store_Ret; auto).
  rewrite S. cbn [obind]. destruct Hr as [[-> ->]|(c & -> & -> & ->)]; reflexivity.
Qed.
Lemma kg_commute a b : (1 <= fst (fst a) <= 3)%nat -> (1 <= fst (fst b) <= 3)%nat -> a = b \/ fst a <> fst b ->
  commute (fun (a : nat * Z * bytes) p => kg_accept (fst (fst a)) (snd (fst a)) (snd a) p) a b.
Proof.
  destruct a as [[r from] msg], b as [[r' from'] msg']. cbn [fst snd]. intros Hr Hr' D s ra s1 rb s2 E1 E2. cbn [fst snd] in *.
  destruct D as [D|D]. { injection D as <- <- <-. cbn [fst snd] in *.
    assert (ra = rb); [|subst rb; exists s1; split; [exact E1|exact E2]]. apply kg_accept_inv in E1. apply kg_accept_inv in E2.
    destruct E1 as [(B1 & -> & _)|(w & B1 & _ & _ & X1)], E2 as [(B2 & -> & _)|(w' & B2 & _ & _ & X2)]; try congruence.
    rewrite B1 in B2. injection B2 as <-. destruct X1 as [[Y1 ->]|(c & Y1 & Z1 & ->)], X2 as [[Y2 ->]|(c' & Y2 & Z2 & ->)]; congruence. }
  apply kg_accept_inv in E1. apply kg_accept_inv in E2.
  destruct E1 as [(B1 & -> & ->)|(w & B1 & R1 & -> & X1)].
  { destruct E2 as [(B2 & -> & ->)|(w' & B2 & R2 & -> & X2)].
    - exists s. unfold kg_accept. rewrite B1, B2. auto.
    - eexists. split; [apply kg_accept_ret; eauto|]. unfold kg_accept. rewrite B1. reflexivity. }
  destruct E2 as [(B2 & -> & ->)|(w' & B2 & R2 & -> & X2)].
  { exists s. split; [unfold kg_accept; rewrite B2; reflexivity|apply kg_accept_ret; auto]. }
  rewrite k_slots_set in R2 by auto.
  assert (Len : from' < Z.of_nat (length (k_slots r' s))). { revert R2. destruct (Nat.eqb_spec r r') as [<-|]; cbv iota; rewrite ?upd_length; lia. }
  eexists. split; [apply kg_accept_ret; [exact B2| |exact X2]; split; [lia|exact Len]|].
  assert (Q : k_set_slots r' (upd (Z.to_nat from') w' (k_slots r' (k_set_slots r (upd (Z.to_nat from) w (k_slots r s)) s))) (k_set_slots r (upd (Z.to_nat from) w (k_slots r s)) s)
    = k_set_slots r (upd (Z.to_nat from) w (k_slots r (k_set_slots r' (upd (Z.to_nat from') w' (k_slots r' s)) s))) (k_set_slots r' (upd (Z.to_nat from') w' (k_slots r' s)) s)).
  { rewrite !k_slots_set by auto. destruct (Nat.eqb_spec r r') as [<-|Nr].
    - rewrite !Nat.eqb_refl, !k_set_set_same by auto. f_equal. apply upd_comm. intro Q. apply D. f_equal. lia.
    - destruct (Nat.eqb_spec r' r); [lia|]. apply k_set_set_diff; auto. }
  rewrite Q. apply kg_accept_ret; auto. rewrite k_slots_set by auto. destruct (Nat.eqb_spec r' r) as [->|]; [rewrite upd_length|]; exact R1.
Qed.
(** Any order of a set of deliveries (different senders or rounds; exact repetitions allowed) gives every delivery the
    same result and the same final session. *)
Theorem C37_keygen_order_irrelevant l l' p h p' : Permutation l l' -> Forall (fun a => (1 <= fst (fst a) <= 3)%nat) l ->
  (forall a b, In a l -> In b l -> a = b \/ fst a <> fst b) -> kg_deliver l p = Ret (h, p') ->
  exists h', kg_deliver l' p = Ret (h', p') /\ Permutation h h'.
Proof.
  intros HP HF HD. rewrite Forall_forall in HF. apply deliver_perm; [exact HP|]. intros a b Ha Hb. apply kg_commute; auto.
Qed.
(** re-delivering the same message changes nothing *)
Theorem C37_keygen_redelivery r from msg p res p' : (1 <= r <= 3)%nat -> kg_accept r from msg p = Ret (res, p') -> kg_accept r from msg p' = Ret (res, p').
Proof.
  intros Hr E. apply kg_accept_inv in E. destruct E as [(B & -> & ->)|(w & B & R & -> & X)]; [unfold kg_accept; rewrite B; reflexivity|].
  assert (Q : k_set_slots r (upd (Z.to_nat from) w (k_slots r p)) p =
    k_set_slots r (upd (Z.to_nat from) w (k_slots r (k_set_slots r (upd (Z.to_nat from) w (k_slots r p)) p))) (k_set_slots r (upd (Z.to_nat from) w (k_slots r p)) p)).
  { rewrite k_slots_set, Nat.eqb_refl, k_set_set_same, upd_upd_same by auto. reflexivity. }
  rewrite Q at 2. apply kg_accept_ret; auto. rewrite k_slots_set, Nat.eqb_refl by auto. rewrite upd_length. exact R.
Qed.

(** signing *)
Section Sign.
  Variables (C : curve) (D : edlib) (B S5 : bytes -> bytes).
  Notation call := (sop_run C D B S5).
  Definition sg_deliver := deliver (fun (a : nat * Z * bytes) p => call (SAcc (fst (fst a)) (snd (fst a)) (snd a)) p).
  Lemma s_set_same k v v' p : s_set_slots k v (s_set_slots k v' p) = s_set_slots k v p. Proof. destruct k; reflexivity. Qed.
  Lemma s_set_diff k k' v v' p : k <> k' -> s_set_slots k v (s_set_slots k' v' p) = s_set_slots k' v' (s_set_slots k v p).
  Proof. destruct k, k'; congruence || reflexivity. Qed.
  Lemma sg_commute a b : a = b \/ snd (fst a) <> snd (fst b) \/ (forall k w k' w', acc_effect (fst (fst a)) (snd a) = Some (k, w) -> acc_effect (fst (fst b)) (snd b) = Some (k', w') -> k <> k') ->
    commute (fun (a : nat * Z * bytes) p => call (SAcc (fst (fst a)) (snd (fst a)) (snd a)) p) a b.
  Proof.
    destruct a as [[r from] msg], b as [[r' from'] msg']. cbn [fst snd]. intros Dj s ra s1 rb s2 E1 E2. cbn [fst snd] in *. rewrite accept_eq in E1, E2.
    destruct Dj as [Dj|Dj].
    { injection Dj as <- <- <-. exists s1. rewrite !accept_eq. destruct (acc_effect r msg) as [[k w]|]; [|split; congruence].
      destruct (store (s_slots k s) from w) as [l|]; cbn [obind] in *; [|discriminate].
      destruct (store (s_slots k s1) from w) as [l'|]; cbn [obind] in *; [|discriminate]. split; congruence. }
    rewrite accept_eq. destruct (acc_effect r msg) as [[k w]|] eqn:A1; destruct (acc_effect r' msg') as [[k' w']|] eqn:A2.
    - destruct (store (s_slots k s) from w) as [l|] eqn:S1; cbn [obind] in *; [|discriminate]. injection E1 as <- <-.
      destruct (store (s_slots k' _) from' w') as [l'|] eqn:S2; cbn [obind] in *; [|discriminate]. injection E2 as <- <-.
      apply store_Ret in S1. destruct S1 as [R1 ->]. apply store_Ret in S2. destruct S2 as [R2 ->]. rewrite s_slots_set in R2 |- *.
      assert (Len : 0 <= from' < Z.of_nat (length (s_slots k' s))) by (revert R2; destruct (skind_eqb_spec k k') as [<-|]; cbv iota; rewrite ?upd_length; lia).
      assert (S2 : store (s_slots k' s) from' w' = Ret (upd (Z.to_nat from') w' (s_slots k' s))) by (apply store_Ret; auto).
      rewrite S2. cbn [obind]. eexists. split; [reflexivity|]. rewrite accept_eq, A1. rewrite s_slots_set.
      assert (S1 : store (if skind_eqb k' k then upd (Z.to_nat from') w' (s_slots k' s) else s_slots k s) from w
        = Ret (upd (Z.to_nat from) w (if skind_eqb k' k then upd (Z.to_nat from') w' (s_slots k' s) else s_slots k s))).
      { apply store_Ret. split; [|reflexivity]. destruct (skind_eqb_spec k' k) as [->|]; [rewrite upd_length|]; lia. }
      rewrite S1. cbn [obind]. do 2 f_equal. destruct (skind_eqb_spec k' k) as [->|Nk].
      + destruct (skind_eqb_spec k k); [|congruence]. rewrite !s_set_same. f_equal. apply upd_comm.
        destruct Dj as [Dj|Dj]; [lia|exfalso; exact (Dj _ _ _ _ eq_refl eq_refl eq_refl)].
      + destruct (skind_eqb_spec k k'); [congruence|]. apply s_set_diff. congruence.
    - injection E2 as <- <-. eexists. split; [reflexivity|]. rewrite accept_eq, A1. exact E1.
    - injection E1 as <- <-. destruct (store (s_slots k' s) from' w') as [l'|] eqn:S2; cbn [obind] in *; [|discriminate]. injection E2 as <- <-.
      eexists. split; [reflexivity|]. rewrite accept_eq, A1. reflexivity.
    - injection E1 as <- <-. injection E2 as <- <-. eexists. split; [reflexivity|]. rewrite accept_eq, A1. reflexivity.
  Qed.
  (** the same for the signing rounds; the two kinds of round-1 messages of one sender also commute *)
  Theorem C37_sign_order_irrelevant l l' p h p' : Permutation l l' ->
    (forall a b, In a l -> In b l -> a = b \/ snd (fst a) <> snd (fst b) \/
       (forall k w k' w', acc_effect (fst (fst a)) (snd a) = Some (k, w) -> acc_effect (fst (fst b)) (snd b) = Some (k', w') -> k <> k')) ->
    sg_deliver l p = Ret (h, p') -> exists h', sg_deliver l' p = Ret (h', p') /\ Permutation h h'.
  Proof. intros HP HD. apply deliver_perm; [exact HP|]. intros a b Ha Hb. apply sg_commute; auto. Qed.
  Theorem C37_sign_redelivery r from msg p res p' : call (SAcc r from msg) p = Ret (res, p') -> call (SAcc r from msg) p' = Ret (res, p').
  Proof.
    rewrite !accept_eq. destruct (acc_effect r msg) as [[k w]|]; [|intro E; injection E as <- <-; reflexivity].
    destruct (store _ _ _) as [l|] eqn:S; cbn [obind]; [|discriminate]. intro E. injection E as <- <-. apply store_Ret in S. destruct S as [R ->].
    rewrite s_slots_set. destruct (skind_eqb_spec k k); [|congruence].
    assert (S : store (upd (Z.to_nat from) w (s_slots k p)) from w = Ret (upd (Z.to_nat from) w (s_slots k p))).
    { apply store_Ret. rewrite upd_length, upd_upd_same. auto. }
    rewrite S. cbn [obind]. rewrite s_set_same. reflexivity.
  Qed.
End Sign.
(** three deliveries to a fresh 3-party session, one of them malformed, in two orders *)
Definition c37_p : kparty := match kg_new 0 3 [str "1"; str "2"; str "3"] (str "05") with Ret (_, Some p) => p | _ => Build_kparty 0 [] (new_save 0) None None [] [] [] [] [] [] [] [] 0 end.
Definition c37_l : list (nat * Z * bytes) := [(1%nat, 1, b64_enc (wire_bytes (CKg1 (str "v")))); (1%nat, 2, b64_enc (str "junk")); (1%nat, 0, str "?")].
Definition c37_rev : list (nat * Z * bytes) := rev c37_l.
Theorem C37_example : exists h h' p', kg_deliver c37_l c37_p = Ret (h, p') /\ kg_deliver c37_rev c37_p = Ret (h', p') /\
  map (fun x => r_ok (snd x)) h = [true; false; false] /\ map (fun x => r_ok (snd x)) h' = [false; false; true] /\ p' <> c37_p.
Proof. do 3 eexists. split; [vm_compute; reflexivity|]. split; [vm_compute; reflexivity|]. repeat split; try reflexivity. vm_compute. discriminate. Qed.
(** two different messages of one sender in one round do not commute: the later one stays *)
Theorem C37_same_sender_last_wins : exists h h' p1 p2,
  kg_deliver [(1%nat, 1, b64_enc (str "a")); (1%nat, 1, b64_enc (str "b"))] c37_p = Ret (h, p1) /\
  kg_deliver [(1%nat, 1, b64_enc (str "b")); (1%nat, 1, b64_enc (str "a"))] c37_p = Ret (h', p2) /\ p1 <> p2.
Proof. do 4 eexists. split; [vm_compute; reflexivity|]. split; [vm_compute; reflexivity|]. vm_compute. discriminate. Qed.
