(** PropMusig.v -- C65: MuSig2 key aggregation, partial and combined signatures. *)
From Verif Require Import Base BigInt NumTh FieldP AbGroup AbZ WGroup WCurve SecpField SecpFieldThm SecpPrimes Secp256k1 SecpCurve SecpJac PropSecp SecpMul SecpZero Curve Keygen Ckd Bip32 PropBip32 PropSecpCurve Ecdsa PropPubKey PropEcdsa Bip340 PropBip340 Musig Euler Pocklington.
From Coq Require Import Znumtheory Sorting.Permutation Sorting.Sorted.
Local Notation N := n256k1. Local Notation P := p256k1.
Local Opaque WCurve.eadd WCurve.eneg AbZ.zm.

(** ** sums of points *)
Definition psum (l : list E) : E := fold_right eadd ezero l.
Lemma e0l (A : E) : eadd ezero A = A. Proof. apply EI. Qed.
Lemma e0r (A : E) : eadd A ezero = A. Proof. rewrite EC. apply EI. Qed.
Lemma psum_cons A l : psum (A :: l) = eadd A (psum l). Proof. reflexivity. Qed.
Lemma psum_nil : psum [] = ezero. Proof. reflexivity. Qed.
Lemma sum_from l : forall A, fold_left eadd l A = eadd A (psum l).
Proof. induction l as [|B l IH]; intro A; cbn [fold_left]; [rewrite psum_nil; now rewrite e0r|]. rewrite IH, psum_cons. now rewrite EA. Qed.
Lemma sum_points_ok l : sum_points l = psum l. Proof. unfold sum_points. rewrite sum_from. apply e0l. Qed.
Lemma psum_perm l l' : Permutation l l' -> psum l = psum l'.
Proof.
  induction 1 as [|a l l' _ IH|a b l|? ? ? _ IH1 _ IH2]; rewrite ?psum_cons; [reflexivity|now rewrite IH| |congruence]. rewrite <- !EA. f_equal. apply EC.
Qed.
Lemma swap4 (a b c d : E) : eadd (eadd a b) (eadd c d) = eadd (eadd a c) (eadd b d).
Proof. apply (AbZ.swap4 E eadd EC EA). Qed.
Lemma psum_add {X} (f g : X -> E) l : psum (map (fun x => eadd (f x) (g x)) l) = eadd (psum (map f l)) (psum (map g l)).
Proof. induction l as [|x l IH]; cbn [map]; rewrite ?psum_cons, ?psum_nil; [now rewrite e0l|]. rewrite IH. apply swap4. Qed.
Lemma psum_zm {X} k (f : X -> E) l : psum (map (fun x => zm k (f x)) l) = zm k (psum (map f l)).
Proof. induction l as [|x l IH]; cbn [map]; rewrite ?psum_cons, ?psum_nil; [symmetry; apply ZMZ|]. rewrite IH, ZMS. reflexivity. Qed.
Lemma psum_G {X} (f : X -> Z) l : zm (fold_left (fun a x => (a + f x) mod N) l 0) G = psum (map (fun x => zm (f x) G) l).
Proof.
  assert (H : forall a, zm (fold_left (fun a x => (a + f x) mod N) l a) G = eadd (zm a G) (psum (map (fun x => zm (f x) G) l))); [|rewrite H, ZM0; apply e0l].
  induction l as [|x l IH]; intro a; cbn [fold_left map]; rewrite ?psum_cons, ?psum_nil; [now rewrite e0r|]. rewrite IH, zm_modN, ZMA. apply EA.
Qed.

(** ** signs *)
Definition sg (b : bool) (A : E) : E := if b then eneg A else A.
Definition even (A : E) : E := sg (odd_y A) A.
Lemma even_def A : even A = if odd_y A then eneg A else A. Proof. unfold even, sg. reflexivity. Qed.
Lemma unit_ok b A : zm (unit b) A = sg b A.
Proof. unfold unit, sg. destruct b; [rewrite zm_modN, ZMO, ZM1; reflexivity|apply ZM1]. Qed.
Lemma sg_zm b k A : sg b (zm k A) = zm k (sg b A). Proof. destruct b; cbn [sg]; [symmetry; apply ZMN|reflexivity]. Qed.
Lemma neg_add (A B : E) : eneg (eadd A B) = eadd (eneg A) (eneg B). Proof. apply (AbZ.neg_add' E eadd ezero eneg EC EA EI EV). Qed.
Lemma sg_add b A B : sg b (eadd A B) = eadd (sg b A) (sg b B). Proof. destruct b; cbn [sg]; [apply neg_add|reflexivity]. Qed.
Lemma sg_psum {X} b (f : X -> E) l : psum (map (fun x => sg b (f x)) l) = sg b (psum (map f l)).
Proof. induction l as [|x l IH]; cbn [map]; rewrite ?psum_cons, ?psum_nil; [destruct b; [symmetry; apply neg_zero|reflexivity]|]. rewrite IH, sg_add. reflexivity. Qed.
Lemma is0_iff A : is0 A = true <-> A = ezero. Proof. apply zero_b. Qed.
Lemma is0_f A : A <> ezero -> is0 A = false. Proof. apply zero_bf. Qed.
Lemma even_nz A : A <> ezero -> even A <> ezero. Proof. intro H. unfold even, sg. destruct (odd_y A); [apply neg_nz, H|exact H]. Qed.
Lemma even_odd A : A <> ezero -> odd_y (even A) = false.
Proof. intro NA. unfold even, sg. destruct (odd_y A) eqn:O; [rewrite odd_neg, O by exact NA; reflexivity|exact O]. Qed.
Lemma even_x A : fst (aff (even A)) = fst (aff A). Proof. unfold even, sg. destruct (odd_y A); [apply aff_neg_x|reflexivity]. Qed.
Lemma even_xb A : xb (even A) = xb A. Proof. unfold xb. now rewrite even_x. Qed.
Lemma even_id A : odd_y A = false -> even A = A. Proof. intro H. unfold even. now rewrite H. Qed.
Lemma parse_xb A : A <> ezero -> parse_xonly (xb A) = Some (even A).
Proof. intro NA. apply parse_xonly_iff. split; [apply even_nz, NA|]. split; [apply even_odd, NA|]. symmetry. apply even_xb. Qed.
(** no point has x coordinate 0: 7 is not a square modulo P *)
Definition red_p (x : Z) : Z := fold_sub 256 4294968273 (fold_sub 256 4294968273 x).
Lemma red_p_ok x : 0 <= x -> 0 <= red_p x /\ cong P (red_p x) x.
Proof.
  intro X. unfold red_p. destruct (fold_sub_ok 256 4294968273 x ltac:(lia) ltac:(lia) X) as [N1 E1]. set (y := fold_sub 256 4294968273 x) in *. clearbody y.
  destruct (fold_sub_ok 256 4294968273 y ltac:(lia) ltac:(lia) N1) as [N2 E2]. split; [exact N2|]. change P with (2 ^ 256 - 4294968273). rewrite E2. exact E1.
Qed.
Definition half_p : positive := Z.to_pos ((P - 1) / 2).
Lemma half_p_ok : 2 * Zpos half_p = P - 1. Proof. reflexivity. Qed.
Lemma pow7 : (ppow red_p 7 half_p + 1) mod P = 0. Proof. vm_compute. reflexivity. Qed.
Lemma no_x0 y : ~ on_curve 0 y.
Proof.
  intros (_ & Y & C). change ((0 * 0 * 0 + 7) mod P) with 7 in C. assert (Y0 : y mod P <> 0) by (intro K; rewrite Zmult_mod, K in C; discriminate C).
  assert (CY : cong P (y * y) 7) by (rewrite <- (cong_mod P (y * y)), C by reflexivity; reflexivity).
  assert (F : cong P (y ^ (P - 1)) 1).
  { apply fermat; [exact prime_p256k1|]. apply Zgcd_1_rel_prime, rel_prime_sym, prime_rel_prime; [exact prime_p256k1|]. intro D. apply Y0. apply Zdivide_mod, D. }
  rewrite <- half_p_ok in F. rewrite Z.pow_mul_r, Z.pow_2_r in F by (clear; lia). rewrite (cong_pow P _ _ (Zpos half_p) CY) in F.
  destruct (ppow_spec P red_p 7 half_p red_p_ok ltac:(lia)) as [_ S]. rewrite <- S in F. pose proof pow7 as Q. assert (K : cong P (ppow red_p 7 half_p + 1) 2) by (rewrite F; reflexivity).
  apply cong_eq in K; [|reflexivity]. rewrite Q in K. discriminate K.
Qed.
Lemma parse_xb_inv A B : parse_xonly (xb A) = Some B -> A <> ezero /\ B = even A.
Proof.
  intro H. destruct (ez_dec A) as [-> | NA]; [|split; [exact NA|]; rewrite parse_xb in H by exact NA; congruence]. exfalso.
  apply parse_xonly_iff in H. destruct H as (NB & _ & X). apply NB. apply aff_none. pose proof (aff_range B) as [_ Y].
  assert (X0 : fst (aff B) = 0) by (rewrite <- xb_val, <- X, xb_val; reflexivity). destruct (aff B) as [x y] eqn:E. cbn [fst snd] in *. subst x. clear X.
  assert (O : on_curve 0 y) by (apply on_curve_point; exists B; auto). destruct (no_x0 y O).
Qed.

(** ** specification: which key has coefficient 1, and the hash coefficients *)
(** [x] is the x coordinate of the second distinct key of the list *)
Definition second_key (ks : list E) (x : bytes) : Prop :=
  exists k0 pre k post, ks = k0 :: pre ++ k :: post /\ Forall (fun q => xb q = xb k0) pre /\ xb k <> xb k0 /\ x = xb k.

Lemma cong_refl_eq m a b : a = b -> cong m a b. Proof. intros ->. reflexivity. Qed.
Section C65.
  Variable TH : bytes -> bytes -> bytes.
  Variable srt : list E -> list E.
  Hypothesis srt_perm : forall l, Permutation l (srt l).
  Hypothesis srt_sorted : forall l, StronglySorted (fun A B : E => fst (aff A) <= fst (aff B)) (srt l).
  Notation coef := (coef TH). Notation fingerprint := (fingerprint TH). Notation agg_keys := (agg_keys TH srt). Notation session := (session TH srt).
  Notation pverify := (pverify TH srt). Notation psign := (psign TH srt). Notation combine := (combine TH). Notation bverify := (bverify TH). Notation scoef := (scoef TH).
  Notation sorted := (sorted srt).

  Definition hash_coef (ks : list E) (A : E) : Z := of_be (TH (str "KeyAgg coefficient") (TH (str "KeyAgg list") (concat (map xb ks)) ++ xb A)) mod N.
  Definition kcoef (ks : list E) (A : E) : Z := coef ks A (fingerprint ks) (second_unique ks).

  Lemma find_ne_spec x ks : forall i, match find_ne x ks i with
    | None => Forall (fun q => xb q = x) ks
    | Some j => exists pre k post, ks = pre ++ k :: post /\ Forall (fun q => xb q = x) pre /\ xb k <> x /\ j = (i + length pre)%nat end.
  Proof.
    induction ks as [|k ks IH]; intro i; cbn [find_ne]; [constructor|]. destruct (bytes_eqb_spec (xb k) x) as [E|E].
    - specialize (IH (S i)). destruct (find_ne x ks (S i)) as [j|]; [|constructor; assumption]. destruct IH as (pre & q & post & -> & F & NE & ->). exists (k :: pre), q, post. split; [reflexivity|]. split; [constructor; assumption|]. split; [exact NE|]. cbn [length]. lia.
    - exists [], k, ks. split; [reflexivity|]. split; [constructor|]. split; [exact E|]. cbn [length]. lia.
  Qed.
  Lemma second_fun ks x y : second_key ks x -> second_key ks y -> x = y.
  Proof.
    intros (k0 & pre & k & post & E & F & NE & ->) (k0' & pre' & k' & post' & E' & F' & NE' & ->). rewrite E in E'. assert (k0' = k0) as -> by congruence. assert (EQ : pre ++ k :: post = pre' ++ k' :: post') by congruence. clear E E'.
    revert pre' EQ F'. induction pre as [|a pre IH]; intros [|a' pre'] EQ F'; cbn [app] in EQ.
    - congruence.
    - exfalso. apply NE. assert (k = a') as -> by congruence. now inversion F'.
    - exfalso. apply NE'. assert (k' = a) as -> by congruence. now inversion F.
    - apply (IH ltac:(now inversion F) pre'); [congruence|now inversion F'].
  Qed.
  (** the coefficient of a key is 1 for the second distinct key of the list and else the hash of the list and the key *)
  Theorem C65_coefficient ks A : (second_key ks (xb A) -> kcoef ks A = 1) /\ (~ second_key ks (xb A) -> kcoef ks A = hash_coef ks A).
  Proof.
    unfold kcoef, Musig.coef, second_unique. change (TH tag_coef (fingerprint ks ++ xb A)) with (TH (str "KeyAgg coefficient") (TH (str "KeyAgg list") (concat (map xb ks)) ++ xb A)). fold (hash_coef ks A).
    destruct ks as [|k0 ks]; [split; [intros (k & pre & q & post & E & _); discriminate E|reflexivity]|]. cbn [find_ne]. rewrite bytes_eqb_refl. pose proof (find_ne_spec (xb k0) ks 1) as S. destruct (find_ne (xb k0) ks 1) as [j|].
    - destruct S as (pre & k & post & E & F & NE & ->). assert (SK : second_key (k0 :: ks) (xb k)) by (exists k0, pre, k, post; rewrite E; auto).
      replace (nth (1 + length pre) (k0 :: ks) ezero) with k by (cbn [Nat.add nth]; rewrite E, app_nth2 by lia; rewrite Nat.sub_diag; reflexivity).
      destruct (bytes_eqb_spec (xb k) (xb A)) as [EQ|NQ]; split; intro H; try reflexivity; [rewrite <- EQ in H; contradiction|destruct (NQ (second_fun _ _ _ SK H))].
    - split; [|reflexivity]. intros (k0' & pre & k & post & E & F & NE & X). exfalso. assert (k0' = k0) as -> by congruence. assert (ks = pre ++ k :: post) as -> by congruence. apply Forall_app in S. destruct S as [_ S]. inversion S. contradiction.
  Qed.
  Lemma kcoef_x ks A B : xb A = xb B -> kcoef ks A = kcoef ks B. Proof. intro E. unfold kcoef, Musig.coef. rewrite E. reflexivity. Qed.
  Lemma agg_sum_ok ks : agg_sum TH ks (fingerprint ks) (second_unique ks) = psum (map (fun k => zm (kcoef ks k) k) ks).
  Proof.
    unfold agg_sum. fold (kcoef ks). assert (H : forall l A, fold_left (fun acc k => eadd acc (zm (kcoef ks k) k)) l A = eadd A (psum (map (fun k => zm (kcoef ks k) k) l))).
    { induction l as [|k l IH]; intro A; cbn [fold_left map]; rewrite ?psum_cons, ?psum_nil; [now rewrite e0r|]. rewrite IH. apply EA. }
    change (fold_left (fun acc k => eadd acc (zm (kcoef ks k) k)) ks ezero = psum (map (fun k => zm (kcoef ks k) k) ks)). rewrite H. apply e0l.
  Qed.
  (** tweaks: the final key is par Q + acc G, par = 1 or -1, and it is not infinity if there is a tweak *)
  Lemma unit_mul p b : p mod N = 1 \/ p mod N = N - 1 -> (p * unit b) mod N = 1 \/ (p * unit b) mod N = N - 1.
  Proof.
    intros H. assert (M1 : (-1) mod N = N - 1) by reflexivity. destruct b; cbn [unit]; [change ((- (1)) mod N) with ((-1) mod N); rewrite Zmult_mod_idemp_r|rewrite Z.mul_1_r; exact H]. rewrite <- Zmult_mod_idemp_l. destruct H as [-> | ->]; [right; reflexivity|left; reflexivity].
  Qed.
  Lemma tweak_inv Q0 tws : forall Q par acc Q' par' acc', Q = eadd (zm par Q0) (zm acc G) -> (par mod N = 1 \/ par mod N = N - 1) -> tweak_all (Q, par, acc) tws = Some (Q', par', acc') ->
    Q' = eadd (zm par' Q0) (zm acc' G) /\ (par' mod N = 1 \/ par' mod N = N - 1) /\ (tws = [] -> par' = par /\ acc' = acc) /\ (tws <> [] -> Q' <> ezero).
  Proof.
    induction tws as [|[t x] tws IH]; intros Q par acc Q' par' acc' HQ HP E; cbn [tweak_all] in E.
    - assert (Q' = Q /\ par' = par /\ acc' = acc) as (-> & -> & ->) by (split; [|split]; congruence). split; [exact HQ|]. split; [exact HP|]. split; [auto|congruence].
    - destruct (tweak_key (Q, par, acc) (t, x)) as [[[Q1 p1] a1]|] eqn:E1; [|discriminate E]. unfold tweak_key in E1. destruct (N <=? of_be t); [discriminate E1|].
      destruct (is0 _) eqn:Z0 in E1; [discriminate E1|]. assert (Q1 = eadd (zm (of_be t) G) (zm (unit (x && odd_y Q)) Q)) as EQ1 by congruence. assert (p1 = (par * unit (x && odd_y Q)) mod N) as EP by congruence. assert (a1 = (acc * unit (x && odd_y Q) + of_be t) mod N) as EAC by congruence.
      assert (N1 : Q1 <> ezero) by (intro K; rewrite EQ1 in K; apply is0_iff in K; congruence). clear E1 Z0.
      destruct (IH Q1 p1 a1 Q' par' acc') as (R1 & R2 & R3 & R4); [| |exact E|].
      + rewrite EQ1, EP, EAC, !zm_modN, HQ, ZMS, ZMA, <- !ZMM. rewrite (Z.mul_comm par), (Z.mul_comm acc). rewrite EC, EA. reflexivity.
      + rewrite EP, Z.mod_mod by discriminate. apply unit_mul, HP.
      + split; [exact R1|]. split; [exact R2|]. split; [discriminate|]. intros _. destruct tws as [|w tws]; [|apply R4; discriminate]. cbn [tweak_all] in E. congruence.
  Qed.
  Lemma agg_eq keys sort tw : agg_keys keys sort tw = agg_of TH (psum (map (fun k => zm (kcoef (sorted sort keys) k) k) (sorted sort keys))) tw.
  Proof. unfold Musig.agg_keys. cbv zeta. rewrite agg_sum_ok. reflexivity. Qed.
  Lemma agg_of_eq Q tw : agg_of TH Q tw = match tw with Tweaks l => Ret (tweaked Q l) | Taproot r => taptweak TH Q (pad32 r) | Bip86 => taptweak TH Q [] end. Proof. reflexivity. Qed.
  Lemma tweaked_ok Q l a : tweaked Q l = Some a -> a_pre a = Q /\ a_fin a = eadd (zm (a_par a) (a_pre a)) (zm (a_acc a) G) /\ (a_par a mod N = 1 \/ a_par a mod N = N - 1) /\
    (l = [] -> a_fin a = a_pre a /\ a_par a = 1 /\ a_acc a = 0) /\ (l <> [] -> a_fin a <> ezero).
  Proof.
    unfold tweaked. intros H. destruct (tweak_all (Q, 1, 0) l) as [[[Q' par] acc]|] eqn:T; [|discriminate H]. assert (a = Agg Q Q' par acc) as -> by congruence. cbn [a_pre a_fin a_par a_acc].
    pose proof T as T0. apply (tweak_inv Q) in T; [|rewrite ZM1, ZM0, e0r; reflexivity|left; reflexivity]. destruct T as (T1 & T2 & T3 & T4). split; [reflexivity|]. split; [exact T1|]. split; [exact T2|]. split; [|exact T4].
    intro L. subst l. cbn [tweak_all] in T0. destruct (T3 eq_refl) as [-> ->]. split; [congruence|auto].
  Qed.
  Lemma taptweak_ok Q r a : taptweak TH Q r = Ret (Some a) -> Q <> ezero /\ tweaked Q [(TH (str "TapTweak") (xb Q ++ r), true)] = Some a.
  Proof.
    unfold taptweak. destruct (parse_xonly (xb Q)) as [K|] eqn:E; [|discriminate]. apply parse_xb_inv in E. destruct E as [NQ ->]. rewrite even_xb. change tag_tap with (str "TapTweak"). intro H. split; [exact NQ|congruence].
  Qed.
  Lemma taptweak_panic Q r : taptweak TH Q r = Panic <-> Q = ezero.
  Proof.
    unfold taptweak. destruct (ez_dec Q) as [-> | NQ]; [|rewrite parse_xb by exact NQ; split; [discriminate|contradiction]]. split; [reflexivity|]. intros _. destruct (parse_xonly (xb ezero)) as [K|] eqn:E; [apply parse_xb_inv in E; destruct E; congruence|reflexivity].
  Qed.
  Lemma tap_final Q t a : tweaked Q [(t, true)] = Some a -> a_pre a = Q /\ of_be t < N /\ a_fin a = eadd (zm (of_be t) G) (even Q).
  Proof.
    unfold tweaked. cbn [tweak_all]. unfold tweak_key. cbn [andb]. destruct (Z.leb_spec N (of_be t)) as [|LT]; [discriminate|]. destruct (is0 _); [discriminate|]. intro H. match type of H with Some ?x = _ => assert (a = x) as -> by congruence end. cbn [a_pre a_fin]. split; [reflexivity|]. split; [exact LT|]. rewrite unit_ok. reflexivity.
  Qed.
  (** The aggregate: pre-tweak key = sum of the keys with their coefficients; final key = par * pre + acc * G. *)
  Theorem C65_aggregate keys sort tw a : agg_keys keys sort tw = Ret (Some a) ->
    a_pre a = psum (map (fun k => zm (kcoef (sorted sort keys) k) k) (sorted sort keys)) /\
    a_fin a = eadd (zm (a_par a) (a_pre a)) (zm (a_acc a) G) /\ (a_par a mod N = 1 \/ a_par a mod N = N - 1) /\
    (tw = Tweaks [] -> a_fin a = a_pre a /\ a_par a = 1 /\ a_acc a = 0) /\ (tw <> Tweaks [] -> a_fin a <> ezero).
  Proof.
    rewrite agg_eq. generalize (psum (map (fun k => zm (kcoef (sorted sort keys) k) k) (sorted sort keys))). intros Q H. rewrite agg_of_eq in H. destruct tw as [l|root|].
    - assert (T : tweaked Q l = Some a) by congruence. apply tweaked_ok in T. destruct T as (H1 & H2 & H3 & H4 & H5). split; [exact H1|]. split; [exact H2|]. split; [exact H3|]. split; [intro K; apply H4; congruence|intro K; apply H5; congruence].
    - apply taptweak_ok in H. destruct H as [_ H]. apply tweaked_ok in H. destruct H as (H1 & H2 & H3 & H4 & H5). split; [exact H1|]. split; [exact H2|]. split; [exact H3|]. split; [discriminate|]. intros _. apply H5. discriminate.
    - apply taptweak_ok in H. destruct H as [_ H]. apply tweaked_ok in H. destruct H as (H1 & H2 & H3 & H4 & H5). split; [exact H1|]. split; [exact H2|]. split; [exact H3|]. split; [discriminate|]. intros _. apply H5. discriminate.
  Qed.
  (** taproot and BIP-86: the final key is the BIP-341 output key of the aggregate *)
  Theorem C65_taproot keys sort root a : agg_keys keys sort (Taproot root) = Ret (Some a) ->
    let t := of_be (TH (str "TapTweak") (xb (a_pre a) ++ pad32 root)) in t < N /\ a_pre a <> ezero /\ a_fin a = eadd (zm t G) (if odd_y (a_pre a) then eneg (a_pre a) else a_pre a).
  Proof.
    rewrite agg_eq. generalize (psum (map (fun k => zm (kcoef (sorted sort keys) k) k) (sorted sort keys))). intros Q H. rewrite agg_of_eq in H. apply taptweak_ok in H. destruct H as [NQ H]. apply tap_final in H. destruct H as (H1 & LT & F). rewrite even_def in F. rewrite <- H1 in NQ, F, LT. split; [exact LT|]. split; [exact NQ|exact F].
  Qed.
  Theorem C65_bip86 keys sort a : agg_keys keys sort Bip86 = Ret (Some a) ->
    let t := of_be (TH (str "TapTweak") (xb (a_pre a))) in t < N /\ a_pre a <> ezero /\ a_fin a = eadd (zm t G) (if odd_y (a_pre a) then eneg (a_pre a) else a_pre a).
  Proof.
    rewrite agg_eq. generalize (psum (map (fun k => zm (kcoef (sorted sort keys) k) k) (sorted sort keys))). intros Q H. rewrite agg_of_eq in H. apply taptweak_ok in H. destruct H as [NQ H]. rewrite app_nil_r in H. apply tap_final in H. destruct H as (H1 & LT & F). rewrite even_def in F. rewrite <- H1 in NQ, F, LT. split; [exact LT|]. split; [exact NQ|exact F].
  Qed.
  (** the script root: the first 32 bytes, padded with zeros *)
  Theorem C65_root root : length (pad32 root) = 32%nat /\ (length root = 32%nat -> pad32 root = root).
  Proof.
    unfold pad32. split; [rewrite firstn_length, app_length, repeat_length; lia|]. intro L. rewrite <- L at 1. rewrite firstn_app, Nat.sub_diag, firstn_O, app_nil_r. apply firstn_all.
  Qed.
  (** the only panic: a taproot tweak of an aggregate at infinity *)
  Theorem C65_panic keys sort tw : agg_keys keys sort tw = Panic <-> (tw = Bip86 \/ exists r, tw = Taproot r) /\ psum (map (fun k => zm (kcoef (sorted sort keys) k) k) (sorted sort keys)) = ezero.
  Proof.
    rewrite agg_eq. generalize (psum (map (fun k => zm (kcoef (sorted sort keys) k) k) (sorted sort keys))). intro Q. rewrite agg_of_eq. destruct tw as [l|r|].
    - split; [discriminate|]. intros [[H|[r H]] _]; discriminate H.
    - rewrite taptweak_panic. split; [intro H; split; [right; exists r; reflexivity|exact H]|intros [_ H]; exact H].
    - rewrite taptweak_panic. split; [intro H; split; [left; reflexivity|exact H]|intros [_ H]; exact H].
  Qed.

  (** ** order of the keys *)
  Lemma sorted_unique (l l' : list E) : (forall A B, In A l -> In B l -> fst (aff A) = fst (aff B) -> A = B) -> Permutation l l' ->
    StronglySorted (fun A B : E => fst (aff A) <= fst (aff B)) l -> StronglySorted (fun A B : E => fst (aff A) <= fst (aff B)) l' -> l = l'.
  Proof.
    revert l'. induction l as [|a l IH]; intros l' INJ PM S S'; [symmetry; apply Permutation_nil, PM|]. destruct l' as [|b l']; [apply Permutation_sym, Permutation_nil in PM; discriminate PM|].
    apply StronglySorted_inv in S, S'. destruct S as [S F], S' as [S' F'].
    assert (a = b) as ->.
    { apply INJ; [left; reflexivity|apply (Permutation_in _ (Permutation_sym PM)); left; reflexivity|]. apply Z.le_antisymm.
      - assert (I : In b (a :: l)) by (apply (Permutation_in _ (Permutation_sym PM)); left; reflexivity). destruct I as [-> | I]; [apply Z.le_refl|]. rewrite Forall_forall in F. apply F, I.
      - assert (I : In a (b :: l')) by (apply (Permutation_in _ PM); left; reflexivity). destruct I as [-> | I]; [apply Z.le_refl|]. rewrite Forall_forall in F'. apply F', I. }
    f_equal. apply IH; [intros; apply INJ; [right|right|]; assumption|apply Permutation_cons_inv in PM; exact PM|exact S|exact S'].
  Qed.
  Lemma even_inj l : Forall (fun A => A <> ezero /\ odd_y A = false) l -> forall A B, In A l -> In B l -> fst (aff A) = fst (aff B) -> A = B.
  Proof. intros F A B IA IB X. rewrite Forall_forall in F. destruct (F A IA) as [NA OA], (F B IB) as [NB OB]. apply same_x; [assumption|assumption|unfold xb; rewrite X; reflexivity|congruence]. Qed.
  Lemma sort_same keys keys' : Forall (fun A => A <> ezero /\ odd_y A = false) keys -> Permutation keys keys' -> sorted true keys = sorted true keys'.
  Proof.
    intros F PM. unfold Musig.sorted. apply sorted_unique; [|rewrite <- (srt_perm keys), PM; apply srt_perm|apply srt_sorted|apply srt_sorted]. apply even_inj. rewrite Forall_forall in *. intros A I. apply F. apply (Permutation_in _ (Permutation_sym (srt_perm keys))), I.
  Qed.
  (** With sorting, the order in which the keys are given does not matter: same aggregate, same signatures, same verdicts. *)
  Theorem C65_order keys keys' tw : Forall (fun A => A <> ezero /\ odd_y A = false) keys -> Permutation keys keys' ->
    agg_keys keys true tw = agg_keys keys' true tw /\
    (forall sn d cn m fast, psign sn d cn keys true tw m fast = psign sn d cn keys' true tw m fast) /\
    (forall s pn cn pk m, pverify s pn cn keys true tw pk m = pverify s pn cn keys' true tw pk m).
  Proof.
    intros F PM. pose proof (sort_same keys keys' F PM) as S. assert (A : agg_keys keys true tw = agg_keys keys' true tw) by (unfold Musig.agg_keys; rewrite S; reflexivity).
    assert (C : forall cn m, session cn keys true tw m = session cn keys' true tw m) by (intros; unfold Musig.session; rewrite A, S; reflexivity).
    assert (V : forall s pn cn pk m, pverify s pn cn keys true tw pk m = pverify s pn cn keys' true tw pk m) by (intros; unfold Musig.pverify; rewrite C; reflexivity).
    split; [exact A|]. split; [|exact V]. intros. unfold Musig.psign. rewrite C. destruct (session cn keys' true tw m) as [[c|]|]; cbn [obind]; try reflexivity. rewrite V. reflexivity.
  Qed.
  (** two different keys with the same x coordinate: without even y the order can matter (nothing fixes the order of equal x) *)

  (** ** partial signatures *)
  Lemma session_inv cn keys sort tw m c : session cn keys sort tw m = Ret (Some c) ->
    agg_keys keys sort tw = Ret (Some (s_agg c)) /\ s_keys c = sorted sort keys /\ s_b c = of_be (TH (str "MuSig/noncecoef") (cn ++ xb (a_fin (s_agg c)) ++ m)) mod N /\
    (exists R1 R2, parse_jac (firstn 33 cn) = Some R1 /\ parse_jac (skipn 33 cn) = Some R2 /\ s_sum c = eadd R1 (zm (s_b c) R2)) /\
    s_r c = (if is0 (s_sum c) then G else s_sum c) /\ s_e c = of_be (TH (str "BIP0340/challenge") (xb (s_r c) ++ xb (a_fin (s_agg c)) ++ m)) mod N.
  Proof.
    unfold Musig.session. destruct (agg_keys keys sort tw) as [[a|]|]; cbn [obind]; [|discriminate|discriminate]. destruct (parse_jac (firstn 33 cn)) as [R1|]; [|discriminate]. destruct (parse_jac (skipn 33 cn)) as [R2|]; [|discriminate].
    intro H. match type of H with Ret (Some ?x) = _ => assert (c = x) as -> by congruence end. cbn [s_agg s_keys s_b s_sum s_r s_e]. split; [reflexivity|]. split; [reflexivity|]. split; [reflexivity|]. split; [exists R1, R2; auto|]. split; reflexivity.
  Qed.
  (** Verify of a partial signature says exactly that s G = +-(R1 + b R2) + e a (+-A) for the session's b, e and signs. *)
  Theorem C65_partial_verify s pn cn keys sort tw pk m : pverify s pn cn keys sort tw pk m = Ret true <->
    exists c R1 R2 A, session cn keys sort tw m = Ret (Some c) /\ parse_jac (firstn 33 pn) = Some R1 /\ parse_jac (skipn 33 pn) = Some R2 /\ parse_xonly pk = Some A /\
      zm s G = eadd (sg (odd_y (s_r c)) (eadd R1 (zm (s_b c) R2))) (zm (s_e c) (zm (kcoef (s_keys c) A) (sg (odd_y (a_fin (s_agg c))) (zm (a_par (s_agg c)) A)))).
  Proof.
    unfold Musig.pverify. destruct (session cn keys sort tw m) as [[c|]|]; cbn [obind].
    2:{ split; [discriminate|]. intros (c & R1 & R2 & A & H & _). discriminate H. }
    2:{ split; [discriminate|]. intros (c & R1 & R2 & A & H & _). discriminate H. }
    destruct (parse_jac (firstn 33 pn)) as [R1|]; [|split; [discriminate|]; intros (c' & R1 & R2 & A & _ & H & _); discriminate H].
    destruct (parse_jac (skipn 33 pn)) as [R2|]; [|split; [discriminate|]; intros (c' & R1' & R2 & A & _ & _ & H & _); discriminate H].
    destruct (parse_xonly pk) as [A|]; [|split; [discriminate|]; intros (c' & R1' & R2' & A & _ & _ & _ & H & _); discriminate H].
    assert (AFF : forall B C : E, (fst (aff B) =? fst (aff C)) && (snd (aff B) =? snd (aff C)) = true <-> B = C).
    { intros B C. rewrite andb_true_iff, !Z.eqb_eq. split; [intros [X Y]; apply aff_inj; rewrite (surjective_pairing (aff B)), (surjective_pairing (aff C)), X, Y; reflexivity|intros ->; auto]. }
    change (if odd_y (s_r c) then eneg (eadd R1 (zm (s_b c) R2)) else eadd R1 (zm (s_b c) R2)) with (sg (odd_y (s_r c)) (eadd R1 (zm (s_b c) R2))). change (scoef c A) with (kcoef (s_keys c) A).
    rewrite !zm_modN. rewrite (ZMM (unit _)), unit_ok, (ZMM (s_e c)). rewrite (EC _ (sg (odd_y (s_r c)) _)).
    split; intro H.
    - exists c, R1, R2, A. repeat (split; [reflexivity|]). apply AFF. congruence.
    - destruct H as (c' & R1' & R2' & A' & H1 & H2 & H3 & H4 & H5). assert (c' = c) as -> by congruence. assert (R1' = R1) as -> by congruence. assert (R2' = R2) as -> by congruence. assert (A' = A) as -> by congruence. apply AFF in H5. rewrite H5. reflexivity.
  Qed.
  Lemma cmp_jac A : A <> ezero -> parse_jac (cmp A) = Some A.
  Proof. intro NA. apply parse_jac_iff. split; [apply cmp_len|auto]. Qed.
  Lemma first_cmp A B : firstn 33 (cmp A ++ B) = cmp A. Proof. rewrite firstn_app, cmp_len, Nat.sub_diag, firstn_O, app_nil_r. apply firstn_all2. rewrite cmp_len. lia. Qed.
  Lemma skip_cmp A B : skipn 33 (cmp A ++ B) = B. Proof. rewrite skipn_app, cmp_len, Nat.sub_diag, skipn_O, skipn_all2 by (rewrite cmp_len; lia). reflexivity. Qed.
  Lemma k_range b : 0 <= k_of b < N. Proof. apply Z.mod_pos_bound. reflexivity. Qed.
  (** What Sign returns verifies as a partial signature of its key with its public nonce: the self-check never fails. *)
  Theorem C65_sign_verifies sn d cn keys sort tw m s R : 0 < d < N -> psign sn d cn keys sort tw m true = Ret (Some (s, R)) ->
    pverify s (pub_nonce sn) cn keys sort tw (xb (zm d G)) m = Ret true /\ psign sn d cn keys sort tw m false = Ret (Some (s, R)) /\ exists c, session cn keys sort tw m = Ret (Some c) /\ R = s_r c.
  Proof.
    intros D E. pose proof (kg_nz d D) as ND. unfold Musig.psign in E |- *. destruct (session cn keys sort tw m) as [[c|]|] eqn:SE; cbn [obind] in E |- *; [|discriminate E|discriminate E].
    destruct ((k_of (firstn 32 sn) =? 0) || (k_of (skipn 32 sn) =? 0)) eqn:KZ; [discriminate E|]. apply orb_false_iff in KZ. destruct KZ as [K1 K2]. apply Z.eqb_neq in K1, K2. replace (d =? 0) with false in E |- * by lia.
    set (s0 := (_ + _ * s_b c + s_e c * scoef c (zm d G) * _) mod N) in E |- *. assert (s0 = s /\ s_r c = R) as [ES ER] by (split; congruence).
    assert (V : pverify s0 (pub_nonce sn) cn keys sort tw (xb (zm d G)) m = Ret true).
    { apply C65_partial_verify. pose proof (k_range (firstn 32 sn)). pose proof (k_range (skipn 32 sn)). exists c, (zm (k_of (firstn 32 sn)) G), (zm (k_of (skipn 32 sn)) G), (even (zm d G)).
      unfold pub_nonce. rewrite first_cmp, skip_cmp, !cmp_jac by (apply kg_nz; lia). rewrite parse_xb by exact ND. split; [exact SE|]. repeat (split; [reflexivity|]).
      rewrite (kcoef_x _ _ (zm d G)) by apply even_xb. change (kcoef (s_keys c) (zm d G)) with (scoef c (zm d G)). set (a := scoef c (zm d G)). unfold s0. rewrite zm_modN, !ZMA. f_equal.
      - rewrite sg_add. f_equal; [|rewrite (Z.mul_comm _ (s_b c)), ZMM, sg_zm; f_equal]; unfold sg; destruct (odd_y (s_r c)); rewrite ?zm_modN, ?ZMO; reflexivity.
      - rewrite Z.mul_assoc || idtac. rewrite !ZMM, zm_modN. f_equal. f_equal. rewrite <- (unit_ok (odd_y (a_fin (s_agg c)))). unfold even. rewrite <- unit_ok, <- !ZMM. apply zm_cong. apply cong_eq; [exact n_pos|]. f_equal. ring. }
    rewrite V. cbn [obind]. rewrite <- ES, <- ER. split; [exact V|]. split; [reflexivity|]. exists c. auto.
  Qed.

  (** ** combining *)
  Lemma parse_all_map {X} (f : X -> bytes) (l : list X) As : parse_all (map f l) = Some As -> Forall2 (fun x A => parse_jac (f x) = Some A) l As.
  Proof.
    revert As. induction l as [|x l IH]; intros As H; cbn [map parse_all] in H; [assert (As = []) as -> by congruence; constructor|].
    destruct (parse_jac (f x)) as [A|] eqn:EA'; [|discriminate H]. destruct (parse_all (map f l)) as [Bs|]; [|discriminate H]. assert (As = A :: Bs) as -> by congruence. constructor; [exact EA'|apply IH; reflexivity].
  Qed.
  Lemma ser_split A B : parse_jac (firstn 33 (ser_jac A ++ ser_jac B)) = Some A /\ parse_jac (skipn 33 (ser_jac A ++ ser_jac B)) = Some B.
  Proof.
    rewrite firstn_app, skipn_app, ser_jac_len, Nat.sub_diag, firstn_O, skipn_O, app_nil_r. rewrite firstn_all2, skipn_all2 by (rewrite ser_jac_len; lia). cbn [app]. split; apply parse_ser_jac.
  Qed.
  (** AggregateNonces: both halves are added up point by point; it fails exactly if some half does not parse *)
  Theorem C65_nonces pns cn : agg_nonces pns = Some cn <-> exists As Bs, Forall2 (fun pn A => parse_jac (firstn 33 pn) = Some A) pns As /\ Forall2 (fun pn B => parse_jac (skipn 33 pn) = Some B) pns Bs /\
    cn = ser_jac (psum As) ++ ser_jac (psum Bs).
  Proof.
    unfold agg_nonces. split.
    - destruct (parse_all (map (firstn 33) pns)) as [As|] eqn:E1; [|discriminate]. destruct (parse_all (map (skipn 33) pns)) as [Bs|] eqn:E2; [|discriminate]. intro H. exists As, Bs. split; [apply (parse_all_map _ _ _ E1)|]. split; [apply (parse_all_map _ _ _ E2)|]. rewrite !sum_points_ok in H. congruence.
    - intros (As & Bs & F1 & F2 & ->). assert (Q : forall (f : bytes -> bytes) l Cs, Forall2 (fun pn A => parse_jac (f pn) = Some A) l Cs -> parse_all (map f l) = Some Cs).
      { intros f l Cs F. induction F as [|x C l Cs HX _ IH]; [reflexivity|]. cbn [map parse_all]. rewrite HX, IH. reflexivity. }
      pose proof (Q _ _ _ F1) as E1. pose proof (Q _ _ _ F2) as E2. unfold bytes in *. rewrite E1, E2, !sum_points_ok. reflexivity.
  Qed.
  Lemma sg_inj b A : sg b A = ezero -> A = ezero. Proof. destruct b; cbn [sg]; [|auto]. intro H. rewrite <- (neg_neg A), H. apply neg_zero. Qed.
  Lemma sg_0 b : sg b ezero = ezero. Proof. destruct b; [apply neg_zero|reflexivity]. Qed.
  Lemma zm_comm a b A : zm a (zm b A) = zm b (zm a A). Proof. rewrite <- !ZMM. f_equal. ring. Qed.
  Lemma par_kill p A : p mod N = 1 \/ p mod N = N - 1 -> zm p A = ezero -> A = ezero.
  Proof.
    intros [H|H] K; rewrite <- zm_modN, H in K; [rewrite ZM1 in K; exact K|]. assert (Q : zm (N - 1) A = eneg A) by (rewrite <- ZM1, <- ZMO || idtac; change (N - 1) with ((- (1)) mod N); rewrite zm_modN, ZMO, ZM1; reflexivity). rewrite Q in K. apply (sg_inj true A K).
  Qed.
  Record signer := Signer { g_key : E; g_nonce : bytes; g_s : Z }.
  Definition kdiff (ks : list E) (k : E) : E := zm (kcoef ks k) (eadd (even k) (eneg k)).
  (** the sum of verified partial signatures *)
  Lemma partial_sum (c : sess) cn keys sort tw m l As Bs : session cn keys sort tw m = Ret (Some c) -> Forall (fun g => pverify (g_s g) (g_nonce g) cn keys sort tw (xb (g_key g)) m = Ret true) l ->
    Forall2 (fun pn A => parse_jac (firstn 33 pn) = Some A) (map g_nonce l) As -> Forall2 (fun pn B => parse_jac (skipn 33 pn) = Some B) (map g_nonce l) Bs ->
    psum (map (fun g => zm (g_s g) G) l) = eadd (sg (odd_y (s_r c)) (eadd (psum As) (zm (s_b c) (psum Bs))))
      (zm (s_e c) (sg (odd_y (a_fin (s_agg c))) (zm (a_par (s_agg c)) (psum (map (fun g => zm (kcoef (s_keys c) (g_key g)) (even (g_key g))) l))))).
  Proof.
    intros SE F F1 F2. revert As Bs F1 F2. induction F as [|g l HV _ IH]; intros As Bs F1 F2; cbn [map] in F1, F2; inversion F1 as [|? A ? As' HA F1']; inversion F2 as [|? B ? Bs' HB F2']; cbn [map]; rewrite ?psum_nil, ?psum_cons.
    - rewrite ZMZ, e0l, sg_0, ZMZ, sg_0, ZMZ, e0l. reflexivity.
    - rewrite (IH As' Bs' F1' F2'). apply C65_partial_verify in HV. destruct HV as (c' & R1 & R2 & K & SE' & P1 & P2 & PK & EQ). assert (c' = c) as -> by congruence. assert (R1 = A) as -> by congruence. assert (R2 = B) as -> by congruence. apply parse_xb_inv in PK. destruct PK as [_ ->].
      rewrite EQ. rewrite (kcoef_x _ (even (g_key g)) (g_key g)) by apply even_xb. rewrite swap4. f_equal.
      + rewrite <- sg_add, ZMS, swap4. reflexivity.
      + rewrite <- ZMS. f_equal. rewrite ZMS, sg_add. f_equal. rewrite (zm_comm (a_par (s_agg c))), <- sg_zm. reflexivity.
  Qed.
  Lemma diff_sum ks l : psum (map (fun g => zm (kcoef ks (g_key g)) (even (g_key g))) l) = eadd (psum (map (fun g => zm (kcoef ks (g_key g)) (g_key g)) l)) (psum (map (fun g => kdiff ks (g_key g)) l)).
  Proof.
    rewrite <- psum_add. f_equal. apply map_ext. intro g. unfold kdiff. rewrite <- ZMS. f_equal. rewrite (EC (even _)), <- EA, EV. symmetry. apply e0l.
  Qed.
  (** the combined scalar *)
  Lemma combined_point (c : sess) cn sort tw m l o : agg_nonces (map g_nonce l) = Some cn -> session cn (map g_key l) sort tw m = Ret (Some c) -> Forall (fun g => pverify (g_s g) (g_nonce g) cn (map g_key l) sort tw (xb (g_key g)) m = Ret true) l ->
    combine_opt TH srt (map g_key l) sort tw m = Ret o \/ tw = Tweaks [] /\ o = None ->
    fst (combine (s_r c) (map g_s l) o) = fst (aff (s_r c)) /\
    zm (snd (combine (s_r c) (map g_s l) o)) G = eadd (eadd (sg (odd_y (s_r c)) (s_sum c)) (zm (s_e c) (even (a_fin (s_agg c)))))
      (zm (s_e c) (sg (odd_y (a_fin (s_agg c))) (zm (a_par (s_agg c)) (psum (map (kdiff (s_keys c)) (map g_key l)))))).
  Proof.
    intros AN SE F OP. split; [reflexivity|]. apply C65_nonces in AN. destruct AN as (As & Bs & F1 & F2 & CN). destruct (session_inv _ _ _ _ _ _ SE) as (AG & KS & _ & (R1 & R2 & PA & PB & SUM) & _ & EE).
    destruct (ser_split (psum As) (psum Bs)) as [Q1 Q2]. rewrite <- CN in Q1, Q2. assert (R1 = psum As) as -> by congruence. assert (R2 = psum Bs) as -> by congruence. clear Q1 Q2 PA PB.
    pose proof (partial_sum c cn (map g_key l) sort tw m l As Bs SE F F1 F2) as PS. rewrite <- SUM in PS. rewrite diff_sum in PS.
    pose proof (C65_aggregate _ _ _ _ AG) as (PRE & FIN & _ & NOT & _). rewrite <- KS in PRE.
    assert (PM : psum (map (fun g => zm (kcoef (s_keys c) (g_key g)) (g_key g)) l) = a_pre (s_agg c)).
    { rewrite PRE. rewrite <- (map_map g_key (fun k => zm (kcoef (s_keys c) k) k)). apply psum_perm. apply Permutation_map. rewrite KS. unfold Musig.sorted. destruct sort; [apply srt_perm|apply Permutation_refl]. }
    rewrite PM in PS. rewrite <- (map_map g_key (kdiff (s_keys c))) in PS.
    set (D := psum (map (kdiff (s_keys c)) (map g_key l))) in *. clearbody D.
    assert (TP : zm (snd (combine (s_r c) (map g_s l) o)) G = eadd (psum (map (fun g => zm (g_s g) G) l)) (zm (s_e c) (sg (odd_y (a_fin (s_agg c))) (zm (a_acc (s_agg c)) G)))).
    { unfold Musig.combine. cbn [snd]. rewrite zm_modN, ZMA. f_equal.
      - rewrite <- (map_map g_s (fun s => zm s G)). rewrite (psum_G (fun s => s)). reflexivity.
      - destruct OP as [OP|[TW ->]].
        + unfold combine_opt in OP. rewrite AG in OP. cbn [obind] in OP. assert (o = Some (a_fin (s_agg c), a_acc (s_agg c), m)) as -> by congruence. change tag_chal with (str "BIP0340/challenge"). rewrite <- EE. rewrite zm_modN, <- Z.mul_assoc, ZMM. f_equal. rewrite (Z.mul_comm (a_acc _)), ZMM, unit_ok. reflexivity.
        + destruct (NOT TW) as (_ & _ & ->). rewrite ZM0, sg_0, ZMZ. reflexivity. }
    rewrite TP, PS. clear TP PS. rewrite !EA. f_equal. rewrite (EC (zm (s_e c) (even _))). rewrite <- !ZMS. f_equal. unfold even. rewrite <- !sg_add. f_equal. rewrite FIN, ZMS.
    rewrite (EC (zm (a_par (s_agg c)) (a_pre (s_agg c)))), !EA. reflexivity.
  Qed.
  Lemma cancel (A B : E) : eadd A B = A <-> B = ezero.
  Proof. split; [|intros ->; apply e0r]. intro H. apply (AbGroup.cancel_l E eadd ezero eneg EC EA EI EV A). rewrite H. symmetry. apply e0r. Qed.
  Lemma cancel_r (A B C : E) : eadd A C = eadd B C -> A = B.
  Proof. intro H. rewrite (EC A), (EC B) in H. exact (AbGroup.cancel_l E eadd ezero eneg EC EA EI EV _ _ _ H). Qed.
  (** One session: the signers l, their public nonces added up to cn, every partial signature verified. *)
  Definition verified (l : list signer) (cn : bytes) (sort : bool) (tw : tweak) (m : bytes) (c : sess) (o : option (E * Z * bytes)) : Prop :=
    agg_nonces (map g_nonce l) = Some cn /\ session cn (map g_key l) sort tw m = Ret (Some c) /\
    Forall (fun g => pverify (g_s g) (g_nonce g) cn (map g_key l) sort tw (xb (g_key g)) m = Ret true) l /\
    (combine_opt TH srt (map g_key l) sort tw m = Ret o \/ tw = Tweaks [] /\ o = None) /\ length m = 32%nat.
  (** the challenge hash is a scalar (all but one hash in 2^128) and the combined key is a point *)
  Definition regular (m : bytes) (c : sess) : Prop :=
    of_be (TH (str "BIP0340/challenge") (xb (s_r c) ++ xb (a_fin (s_agg c)) ++ m)) < N /\ a_fin (s_agg c) <> ezero.
  (** The combination of verified partial signatures is a valid BIP-340 signature of the combined key exactly if
      e * sum of a_i (even(P_i) - P_i) = 0. *)
  Theorem C65_combined_iff l cn sort tw m c o : verified l cn sort tw m c o -> regular m c -> s_sum c <> ezero ->
    bverify (combine (s_r c) (map g_s l) o) m (a_fin (s_agg c)) = true <-> zm (s_e c) (psum (map (fun k => zm (kcoef (s_keys c) k) (eadd (even k) (eneg k))) (map g_key l))) = ezero.
  Proof.
    intros (AN & SE & F & OP & LM) (HL & NQ) NS. destruct (combined_point c cn sort tw m l o AN SE F OP) as [FX SX]. destruct (session_inv _ _ _ _ _ _ SE) as (AG & _ & _ & _ & SR & EE). rewrite is0_f in SR by exact NS.
    pose proof (C65_aggregate _ _ _ _ AG) as (_ & _ & PAR & _ & _).
    assert (ED : s_e c = of_be (TH (str "BIP0340/challenge") (xb (s_r c) ++ xb (a_fin (s_agg c)) ++ m))) by (rewrite EE; apply Z.mod_small; pose proof (of_be_range (TH (str "BIP0340/challenge") (xb (s_r c) ++ xb (a_fin (s_agg c)) ++ m))); lia).
    rewrite <- SR in SX at 1. fold (even (s_r c)) in SX. change (map (fun k => zm (kcoef (s_keys c) k) (eadd (even k) (eneg k))) (map g_key l)) with (map (kdiff (s_keys c)) (map g_key l)).
    set (D := psum (map (kdiff (s_keys c)) (map g_key l))) in *. clearbody D. set (sig := combine (s_r c) (map g_s l) o) in *. clearbody sig. assert (NR : s_r c <> ezero) by (rewrite SR; exact NS).
    unfold Bip340.bverify. rewrite (C64_verify TH (fun _ _ _ => 0)). unfold valid. rewrite FX. split.
    - intros (_ & A & R & e & NA & OA & XA & HE & LE & NR' & OR & XR & EQ).
      assert (A = even (a_fin (s_agg c))) as -> by (apply same_x; [exact NA|apply even_nz, NQ|rewrite even_xb; symmetry; exact XA|rewrite even_odd by exact NQ; exact OA]).
      assert (R = even (s_r c)) as -> by (apply same_x; [exact NR'|apply even_nz, NR|rewrite even_xb; unfold xb; rewrite XR; reflexivity|rewrite even_odd by exact NR; exact OR]).
      assert (e = s_e c) as -> by (rewrite HE, ED; reflexivity). rewrite SX in EQ. apply cancel in EQ. rewrite <- sg_zm in EQ. apply sg_inj in EQ. rewrite zm_comm in EQ. exact (par_kill _ _ PAR EQ).
    - intro HD. split; [exact LM|]. exists (even (a_fin (s_agg c))), (even (s_r c)), (s_e c). split; [apply even_nz, NQ|]. split; [apply even_odd, NQ|]. split; [symmetry; apply even_xb|]. split; [exact ED|]. split; [rewrite ED; exact HL|]. split; [apply even_nz, NR|]. split; [apply even_odd, NR|]. split; [apply even_x|].
      rewrite SX, <- sg_zm, zm_comm, HD, ZMZ, sg_0, e0r. reflexivity.
  Qed.
  (** With even-y keys (as ParsePubKey returns them) the combination of verified partial signatures is always valid: a bad
      combination can be blamed on a signer. *)
  Theorem C65_combined_valid l cn sort tw m c o : verified l cn sort tw m c o -> regular m c -> s_sum c <> ezero ->
    Forall (fun g => odd_y (g_key g) = false) l -> bverify (combine (s_r c) (map g_s l) o) m (a_fin (s_agg c)) = true.
  Proof.
    intros V R NS EV'. apply (C65_combined_iff l cn sort tw m c o V R NS). assert (Z0 : psum (map (fun k => zm (kcoef (s_keys c) k) (eadd (even k) (eneg k))) (map g_key l)) = ezero); [|rewrite Z0; apply ZMZ].
    generalize (s_keys c). intro ks. clear - EV'. induction EV' as [|g l O _ IH]; [reflexivity|]. cbn [map]. rewrite psum_cons, IH, even_id, EV, ZMZ by exact O. apply e0r.
  Qed.
  Lemma order_all k (A : E) : A <> ezero -> zm k A = ezero -> k mod N = 0.
  Proof.
    intros NA H. apply (AbZ.zm_order E eadd ezero eneg EC EA EI EV N A k prime_n256k1); [|exact NA|exact H]. change (zm N A = ezero). rewrite <- (zm_modN N A), Z.mod_same by discriminate. apply ZM0.
  Qed.
  (** One key with odd y: every partial signature verifies, yet the combination is invalid (unless the challenge or the coefficient is 0). *)
  Theorem C65_odd_key_refuted l1 g l2 cn sort tw m c o : verified (l1 ++ g :: l2) cn sort tw m c o -> regular m c -> s_sum c <> ezero ->
    Forall (fun g => odd_y (g_key g) = false) (l1 ++ l2) -> odd_y (g_key g) = true -> s_e c <> 0 -> kcoef (s_keys c) (g_key g) mod N <> 0 ->
    bverify (combine (s_r c) (map g_s (l1 ++ g :: l2)) o) m (a_fin (s_agg c)) = false.
  Proof.
    intros V R NS EV' OG EN CN. destruct (bverify _ _ _) eqn:B; [exfalso|reflexivity]. pose proof V as V0. apply (C65_combined_iff _ cn sort tw m c o V R NS) in B.
    destruct V0 as (_ & SE & F & _). apply Forall_app in F. destruct F as [_ F]. apply Forall_inv in F. apply C65_partial_verify in F. destruct F as (_ & _ & _ & A & _ & _ & _ & PK & _). apply parse_xb_inv in PK. destruct PK as [NK _].
    assert (Z0 : forall l, Forall (fun g => odd_y (g_key g) = false) l -> psum (map (fun k => zm (kcoef (s_keys c) k) (eadd (even k) (eneg k))) (map g_key l)) = ezero).
    { clear. generalize (s_keys c). intros ks l H. induction H as [|g l O _ IH]; [reflexivity|]. cbn [map]. rewrite psum_cons, IH, even_id, EV, ZMZ by exact O. apply e0r. }
    assert (PAPP : forall a b, psum (a ++ b) = eadd (psum a) (psum b)) by (induction a as [|x a IH]; intro b; cbn [app]; [rewrite psum_nil, e0l; reflexivity|rewrite !psum_cons, IH, EA; reflexivity]).
    apply Forall_app in EV'. destruct EV' as [F1 F2]. rewrite map_app, map_app, PAPP in B. cbn [map] in B. rewrite psum_cons, (Z0 l1 F1), (Z0 l2 F2), e0l, e0r in B. unfold even, sg in B. rewrite OG in B.
    assert (T : eadd (eneg (g_key g)) (eneg (g_key g)) = zm (-2) (g_key g)) by (rewrite <- neg_add; change (-2) with (- (2)); rewrite ZMO, ZM2; reflexivity). rewrite T, <- !ZMM in B. apply order_all in B; [|exact NK].
    destruct (session_inv _ _ _ _ _ _ SE) as (_ & _ & _ & _ & _ & EE). assert (ER : 0 <= s_e c < N) by (rewrite EE; apply Z.mod_pos_bound; reflexivity).
    apply Zmod_divide in B; [|discriminate]. apply (prime_mult N prime_n256k1) in B. destruct B as [B|B].
    - apply (prime_mult N prime_n256k1) in B. destruct B as [B|B]; apply Zdivide_mod in B; [rewrite Z.mod_small in B by exact ER; contradiction|contradiction].
    - apply Zdivide_mod in B. discriminate B.
  Qed.
  (** The nonces add up to infinity: G takes the place of the nonce, the partial signatures verify, but the combination does not. *)
  Theorem C65_infinity_refuted l cn sort tw m c o : verified l cn sort tw m c o -> regular m c -> s_sum c = ezero ->
    Forall (fun g => odd_y (g_key g) = false) l -> s_r c = G /\ bverify (combine (s_r c) (map g_s l) o) m (a_fin (s_agg c)) = false.
  Proof.
    intros (AN & SE & F & OP & LM) (HL & NQ) NS EV'. destruct (combined_point c cn sort tw m l o AN SE F OP) as [FX SX]. destruct (session_inv _ _ _ _ _ _ SE) as (AG & _ & _ & _ & SR & EE). rewrite NS in SR. replace (is0 ezero) with true in SR by (symmetry; apply is0_iff; reflexivity).
    split; [exact SR|]. destruct (bverify _ _ _) eqn:B; [exfalso|reflexivity].
    assert (Z0 : psum (map (kdiff (s_keys c)) (map g_key l)) = ezero).
    { generalize (s_keys c). intro ks. clear - EV'. induction EV' as [|g l O _ IH]; [reflexivity|]. cbn [map]. unfold kdiff in *. rewrite psum_cons, IH, even_id, EV, ZMZ by exact O. apply e0r. }
    assert (ED : s_e c = of_be (TH (str "BIP0340/challenge") (xb (s_r c) ++ xb (a_fin (s_agg c)) ++ m))) by (rewrite EE; apply Z.mod_small; pose proof (of_be_range (TH (str "BIP0340/challenge") (xb (s_r c) ++ xb (a_fin (s_agg c)) ++ m))); lia).
    rewrite Z0, ZMZ, sg_0, ZMZ, e0r, NS, sg_0, e0l in SX. set (sig := combine (s_r c) (map g_s l) o) in *. clearbody sig. unfold Bip340.bverify in B. apply (C64_verify TH (fun _ _ _ => 0)) in B. destruct B as (_ & A & R & e & NA & OA & XA & HE & LE & NR' & OR & XR & EQ).
    assert (A = even (a_fin (s_agg c))) as -> by (apply same_x; [exact NA|apply even_nz, NQ|rewrite even_xb; symmetry; exact XA|rewrite even_odd by exact NQ; exact OA]).
    assert (e = s_e c) as -> by (rewrite HE, ED, FX; reflexivity). rewrite SX in EQ. apply NR'. symmetry in EQ. rewrite EC in EQ. apply cancel in EQ. exact EQ.
  Qed.

  (** ** the honest run *)
  Lemma nonce_ok sn : k_of (firstn 32 sn) <> 0 -> k_of (skipn 32 sn) <> 0 -> parse_jac (firstn 33 (pub_nonce sn)) = Some (zm (k_of (firstn 32 sn)) G) /\ parse_jac (skipn 33 (pub_nonce sn)) = Some (zm (k_of (skipn 32 sn)) G).
  Proof. intros K1 K2. pose proof (k_range (firstn 32 sn)). pose proof (k_range (skipn 32 sn)). unfold pub_nonce. rewrite first_cmp, skip_cmp, !cmp_jac by (apply kg_nz; lia). auto. Qed.
  (** Everyone follows the protocol: keys d_i with x-only public keys, secret nonces with non-zero halves, nonces aggregated,
      each Sign succeeds, and the combination verifies under the (tweaked) combined key. *)
  Theorem C65_honest (l : list (Z * bytes)) cn sort tw m c o fast : Forall (fun p : Z * bytes => 0 < fst p < N /\ k_of (firstn 32 (snd p)) <> 0 /\ k_of (skipn 32 (snd p)) <> 0) l ->
    let keys := map (fun p => even (zm (fst p) G)) l in
    agg_nonces (map (fun p => pub_nonce (snd p)) l) = Some cn -> session cn keys sort tw m = Ret (Some c) -> (combine_opt TH srt keys sort tw m = Ret o \/ tw = Tweaks [] /\ o = None) -> length m = 32%nat ->
    regular m c -> s_sum c <> ezero ->
    exists ss, Forall2 (fun p s => psign (snd p) (fst p) cn keys sort tw m fast = Ret (Some (s, s_r c))) l ss /\ bverify (combine (s_r c) ss o) m (a_fin (s_agg c)) = true.
  Proof.
    intros HF keys AN SE OP LM RG NS.
    set (s_of := fun p : Z * bytes => match psign (snd p) (fst p) cn keys sort tw m true with Ret (Some (s, _)) => s | _ => 0 end).
    assert (SG : forall p, In p l -> psign (snd p) (fst p) cn keys sort tw m true = Ret (Some (s_of p, s_r c))).
    { intros p I. rewrite Forall_forall in HF. destruct (HF p I) as (D & K1 & K2). unfold s_of, Musig.psign. rewrite SE. cbn [obind]. apply Z.eqb_neq in K1, K2. rewrite K1, K2. cbn [orb]. assert (D0 : (fst p =? 0) = false) by (clear - D; lia). rewrite D0. reflexivity. }
    clearbody s_of. set (gs := map (fun p => Signer (even (zm (fst p) G)) (pub_nonce (snd p)) (s_of p)) l).
    assert (GK : map g_key gs = keys) by (unfold gs; rewrite map_map; reflexivity). assert (GN : map g_nonce gs = map (fun p => pub_nonce (snd p)) l) by (unfold gs; rewrite map_map; reflexivity). assert (GS : map g_s gs = map s_of l) by (unfold gs; rewrite map_map; reflexivity).
    exists (map s_of l). split.
    - assert (X : forall l', Forall (fun p : Z * bytes => 0 < fst p < N /\ k_of (firstn 32 (snd p)) <> 0 /\ k_of (skipn 32 (snd p)) <> 0) l' -> (forall p, In p l' -> psign (snd p) (fst p) cn keys sort tw m true = Ret (Some (s_of p, s_r c))) ->
        Forall2 (fun p s => psign (snd p) (fst p) cn keys sort tw m fast = Ret (Some (s, s_r c))) l' (map s_of l')); [|apply X; assumption].
      induction l' as [|p l' IH]; intros HF' SG'; cbn [map]; constructor.
      + destruct fast; [apply SG'; left; reflexivity|]. apply Forall_inv in HF'. destruct HF' as (D & _). pose proof (SG' p (or_introl eq_refl)) as E. exact (proj1 (proj2 (C65_sign_verifies _ _ _ _ _ _ _ _ _ D E))).
      + apply IH; [now inversion HF'|]. intros q I. apply SG'. right. exact I.
    - rewrite <- GS. apply (C65_combined_valid gs cn sort tw m c o); [|exact RG|exact NS|].
      + split; [rewrite GN; exact AN|]. rewrite GK. split; [exact SE|]. split; [|split; [exact OP|exact LM]]. unfold gs. rewrite Forall_map. rewrite Forall_forall in *. intros p I. cbn [g_s g_nonce g_key]. rewrite even_xb. exact (proj1 (C65_sign_verifies _ _ _ _ _ _ _ _ _ (proj1 (HF p I)) (SG p I))).
      + unfold gs. rewrite Forall_map. rewrite Forall_forall in *. intros p I. cbn [g_key]. apply even_odd. apply kg_nz. exact (proj1 (HF p I)).
  Qed.

  (** ** nonce reuse *)
  (** Three partial signatures made with one secret nonce reveal the key unless the three equations are dependent. *)
  Theorem C65_nonce_reuse_reveals sn d (q : nat -> bytes * list E * bool * tweak * bytes) (c : nat -> sess) (s : nat -> Z) (R : nat -> E) : 0 < d < N ->
    (forall i, (i < 3)%nat -> let '(cn, keys, sort, tw, m) := q i in session cn keys sort tw m = Ret (Some (c i)) /\ psign sn d cn keys sort tw m true = Ret (Some (s i, R i))) ->
    let u i := unit (odd_y (s_r (c i))) in let v i := u i * s_b (c i) in
    let w i := s_e (c i) * kcoef (s_keys (c i)) (zm d G) * unit (odd_y (a_fin (s_agg (c i)))) * unit (odd_y (zm d G)) * a_par (s_agg (c i)) in
    let det x y z := x 0%nat * (y 1%nat * z 2%nat - y 2%nat * z 1%nat) - x 1%nat * (y 0%nat * z 2%nat - y 2%nat * z 0%nat) + x 2%nat * (y 0%nat * z 1%nat - y 1%nat * z 0%nat) in
    det u v w mod N <> 0 -> exists t, invm (det u v w mod N) N = Some t /\ (t * det u v s) mod N = d.
  Proof.
    intros D H u v w det NZ. set (k1 := k_of (firstn 32 sn)). set (k2 := k_of (skipn 32 sn)).
    assert (SI : forall i, (i < 3)%nat -> cong N (s i) (u i * k1 + v i * k2 + w i * d)).
    { intros i I. specialize (H i I). destruct (q i) as [[[[cn keys] sort] tw] m]. destruct H as [SE PS]. unfold Musig.psign in PS. rewrite SE in PS. cbn [obind] in PS. fold k1 k2 in PS. destruct ((k1 =? 0) || (k2 =? 0)); [discriminate PS|]. assert (D0 : (d =? 0) = false) by (clear - D; lia). rewrite D0 in PS.
      match type of PS with Ret (Some (?x, _)) = _ => assert (s i = x) as -> by congruence end. clear PS. rewrite cong_mod by exact n_pos. change (scoef (c i) (zm d G)) with (kcoef (s_keys (c i)) (zm d G)).
      assert (UK : forall k, cong N (if odd_y (s_r (c i)) then (- k) mod N else k) (u i * k)).
      { intro k. unfold u, unit. destruct (odd_y (s_r (c i))); [|replace (1 * k) with k by ring; reflexivity]. rewrite !cong_mod by exact n_pos. replace (- (1) * k) with (- k) by ring. reflexivity. }
      rewrite (UK k1), (UK k2). rewrite (cong_mod N (d * _ * _ * _)) by exact n_pos. unfold v, w. apply cong_refl_eq. ring. }
    pose proof (SI 0%nat ltac:(lia)) as S0. pose proof (SI 1%nat ltac:(lia)) as S1. pose proof (SI 2%nat ltac:(lia)) as S2. clear SI H.
    pose proof (Z.mod_pos_bound (det u v w) N n_pos) as B. destruct (inv_ok (det u v w mod N)) as (t & T & _ & C); [clear - NZ B; lia|]. exists t. split; [exact T|]. rewrite <- (Z.mod_small d N) by (clear - D; lia). apply cong_eq; [exact n_pos|].
    rewrite (cong_mod N (det u v w)) in C by exact n_pos. assert (DS : cong N (det u v s) (det u v w * d)).
    { unfold det. rewrite S0, S1, S2. apply cong_refl_eq. ring. }
    rewrite DS. replace (t * (det u v w * d)) with (det u v w * t * d) by ring. rewrite C. apply cong_refl_eq. ring.
  Qed.
End C65.
(** ** partial signature encoding *)
Theorem C65_encoding s rest : 0 <= s < N -> length (pencode s) = 32%nat /\ pdecode (pencode s ++ rest) = Some s.
Proof.
  intro S. unfold pencode, pdecode. split; [apply be_fixed_length|]. rewrite app_length, be_fixed_length. replace (32 + length rest <? 32)%nat with false by (symmetry; apply Nat.ltb_ge; lia).
  rewrite firstn_app, be_fixed_length, Nat.sub_diag, firstn_O, app_nil_r, firstn_all2 by (rewrite be_fixed_length; lia). rewrite of_be_be_fixed by (rewrite p256; assert (N < 2 ^ 256) by reflexivity; lia). assert (L : (N <=? s) = false) by (clear - S; lia). rewrite L. reflexivity.
Qed.
Theorem C65_decode b : (pdecode b = None <-> (32 <= length b)%nat /\ N <= of_be (firstn 32 b)) /\ (forall s, (32 <= length b)%nat -> pdecode b = Some s -> 0 <= s < N /\ firstn 32 b = pencode s).
Proof.
  unfold pdecode, pencode. destruct (Nat.ltb_spec (length b) 32) as [L|L]; [split; [split; [discriminate|intros [K _]; lia]|intros s K; lia]|]. destruct (Z.leb_spec N (of_be (firstn 32 b))) as [G'|G'].
  - split; [split; [auto|reflexivity]|]. intros s _ K. discriminate K.
  - split; [split; [discriminate|]; intros [_ K]; lia|]. intros s _ K. assert (of_be (firstn 32 b) = s) as <- by congruence. pose proof (of_be_range (firstn 32 b)). split; [lia|]. symmetry.
    pose proof (be_fixed_of_be (firstn 32 b)) as Q. replace (length (firstn 32 b)) with 32%nat in Q by (rewrite firstn_length; lia). exact Q.
Qed.
(** Decode of fewer than 32 bytes reports success with the scalar 0 *)
Theorem C65_decode_short_refuted b : (length b < 32)%nat -> pdecode b = Some 0.
Proof. intro L. unfold pdecode. replace (length b <? 32)%nat with true by (symmetry; apply Nat.ltb_lt; exact L). reflexivity. Qed.

(** ** nonce generation *)
Lemma app_split (a b c d : bytes) : length a = length c -> a ++ b = c ++ d -> a = c /\ b = d.
Proof. revert c. induction a as [|x a IH]; intros [|y c] L E; cbn in *; try discriminate L; [auto|]. injection L as L. assert (x = y) as -> by congruence. assert (E' : a ++ b = c ++ d) by congruence. destruct (IH c L E') as [-> ->]. auto. Qed.
Lemma field_inj k (a b x y : bytes) : Z.of_nat (length a) < 256 ^ Z.of_nat k -> Z.of_nat (length b) < 256 ^ Z.of_nat k ->
  be_fixed k (Z.of_nat (length a)) ++ a ++ x = be_fixed k (Z.of_nat (length b)) ++ b ++ y -> a = b /\ x = y.
Proof.
  intros A B E. apply app_split in E; [|rewrite !be_fixed_length; reflexivity]. destruct E as [E1 E2]. apply app_split; [|exact E2]. apply (f_equal of_be) in E1. rewrite !of_be_be_fixed in E1 by lia. lia.
Qed.
(** The hashed input of the nonce determines the randomness, the combined key, the message, the auxiliary input and which of
    the two nonces it is: different inputs give different nonces or a hash collision (or equal scalars modulo N). *)
Theorem C65_nonce_binds rnd key msg aux i rnd' key' msg' aux' i' : length rnd = 32%nat -> length rnd' = 32%nat -> (length key < 256)%nat -> (length key' < 256)%nat -> (length msg < 256)%nat -> (length msg' < 256)%nat ->
  Z.of_nat (length aux) < 2 ^ 32 -> Z.of_nat (length aux') < 2 ^ 32 -> 0 <= i < 256 -> 0 <= i' < 256 -> nonce_pre rnd key msg aux i = nonce_pre rnd' key' msg' aux' i' ->
  rnd = rnd' /\ key = key' /\ msg = msg' /\ aux = aux' /\ i = i'.
Proof.
  intros L L' K K' M M' A A' I I' E. unfold nonce_pre in E. apply app_split in E; [|congruence]. destruct E as [-> E]. apply field_inj in E; [|change (256 ^ Z.of_nat 1) with 256; lia|change (256 ^ Z.of_nat 1) with 256; lia]. destruct E as [-> E].
  apply field_inj in E; [|change (256 ^ Z.of_nat 1) with 256; lia|change (256 ^ Z.of_nat 1) with 256; lia]. destruct E as [-> E]. apply field_inj in E; [|change (256 ^ Z.of_nat 4) with (2 ^ 32); lia|change (256 ^ Z.of_nat 4) with (2 ^ 32); lia]. destruct E as [-> E].
  apply (f_equal of_be) in E. rewrite !of_be_be_fixed in E by (change (256 ^ Z.of_nat 1) with 256; lia). auto.
Qed.
Lemma k_be k : 0 <= k < N -> k_of (be_fixed 32 k) = k.
Proof. intro K. unfold k_of. rewrite of_be_be_fixed by (rewrite p256; assert (N < 2 ^ 256) by reflexivity; lia). apply Z.mod_small, K. Qed.
(** GenNonces: 64 + 66 bytes; the public nonce consists of the points of the two secret halves; a zero half (probability
    2^-256) gives a public nonce that nobody can parse. *)
Theorem C65_gen_nonces TH rnd sk key msg aux pn sn : gen_nonces TH rnd sk key msg aux = (pn, sn) -> length sn = 64%nat /\ length pn = 66%nat /\
  let r := if (length sk =? 32)%nat then xor sk (TH (str "MuSig/aux") rnd) else rnd in
  let k i := of_be (TH (str "MuSig/nonce") (nonce_pre r key msg aux i)) mod N in
  k_of (firstn 32 sn) = k 0 /\ k_of (skipn 32 sn) = k 1 /\ pn = pub_nonce sn /\
  (k 0 <> 0 -> parse_jac (firstn 33 pn) = Some (zm (k 0) G)) /\ (k 1 <> 0 -> parse_jac (skipn 33 pn) = Some (zm (k 1) G)) /\ (k 0 = 0 \/ k 1 = 0 -> forall l, In pn l -> agg_nonces l = None).
Proof.
  unfold gen_nonces. change tag_naux with (str "MuSig/aux"). change tag_ngen with (str "MuSig/nonce"). cbv zeta. generalize (if (length sk =? 32)%nat then xor sk (TH (str "MuSig/aux") rnd) else rnd). intro r.
  set (k0 := of_be (TH (str "MuSig/nonce") (nonce_pre r key msg aux 0)) mod N). set (k1 := of_be (TH (str "MuSig/nonce") (nonce_pre r key msg aux 1)) mod N).
  assert (R0 : 0 <= k0 < N) by (apply Z.mod_pos_bound; reflexivity). assert (R1 : 0 <= k1 < N) by (apply Z.mod_pos_bound; reflexivity). clearbody k0 k1. intro H.
  assert (pn = pub_nonce (be_fixed 32 k0 ++ be_fixed 32 k1)) as -> by congruence. assert (sn = be_fixed 32 k0 ++ be_fixed 32 k1) as -> by congruence. clear H.
  assert (F : firstn 32 (be_fixed 32 k0 ++ be_fixed 32 k1) = be_fixed 32 k0) by (rewrite firstn_app, be_fixed_length, Nat.sub_diag, firstn_O, app_nil_r; apply firstn_all2; rewrite be_fixed_length; lia).
  assert (S : skipn 32 (be_fixed 32 k0 ++ be_fixed 32 k1) = be_fixed 32 k1) by (rewrite skipn_app, be_fixed_length, Nat.sub_diag, skipn_O, skipn_all2 by (rewrite be_fixed_length; lia); reflexivity).
  split; [rewrite app_length, !be_fixed_length; reflexivity|]. unfold pub_nonce. rewrite F, S, !k_be by assumption. split; [rewrite app_length, !cmp_len; reflexivity|]. split; [reflexivity|]. split; [reflexivity|]. split; [reflexivity|]. rewrite (first_cmp TH), (skip_cmp TH).
  split; [intro K; apply cmp_jac, kg_nz; lia|]. split; [intro K; apply cmp_jac, kg_nz; lia|].
  assert (NZ : parse_jac (cmp ezero) = None).
  { destruct (parse_jac (cmp ezero)) as [A|] eqn:E; [|reflexivity]. exfalso. apply parse_jac_iff in E. destruct E as [_ [[NA E]|[_ E]]]; [|assert (B : bz (zb 2) = bz (zb 0)) by (change (nth_error (cmp ezero) 0) with (Some (zb 2)) in E; congruence); discriminate B].
    unfold cmp in E. assert (X : xb ezero = xb A) by congruence. assert (X0 : fst (aff A) = 0) by (rewrite <- xb_val, <- X, xb_val; reflexivity). destruct (aff A) as [x y] eqn:EA'. cbn [fst] in X0. subst x. apply (no_x0 y). apply on_curve_point. exists A. auto. }
  intros K l I. destruct (agg_nonces l) as [cn|] eqn:AN; [exfalso|reflexivity]. apply C65_nonces in AN. destruct AN as (As & Bs & F1 & F2 & _).
  assert (Q : forall (f : bytes -> bytes) l' Cs x, Forall2 (fun pn A => parse_jac (f pn) = Some A) l' Cs -> In x l' -> parse_jac (f x) <> None) by (clear; intros f l' Cs x FA; induction FA as [|y C l' Cs HC _ IH]; [intros []|intros [-> | IN]; [congruence|exact (IH IN)]]).
  destruct K as [-> | ->]; rewrite ZM0 in *; [apply (Q _ _ _ _ F1 I); rewrite (first_cmp TH)|apply (Q _ _ _ _ F2 I); rewrite (skip_cmp TH)]; exact NZ.
Qed.

(** ** the hypotheses are met *)
Fixpoint insert (A : E) (l : list E) : list E := match l with [] => [A] | B :: r => if fst (aff A) <=? fst (aff B) then A :: l else B :: insert A r end.
Definition isort (l : list E) : list E := fold_right insert [] l.
Lemma insert_perm A l : Permutation (A :: l) (insert A l).
Proof. induction l as [|B l IH]; cbn [insert]; [apply Permutation_refl|]. destruct (_ <=? _); [apply Permutation_refl|]. rewrite perm_swap. constructor. exact IH. Qed.
Theorem C65_sort_exists : (forall l, Permutation l (isort l)) /\ (forall l, StronglySorted (fun A B : E => fst (aff A) <= fst (aff B)) (isort l)).
Proof.
  split.
  - induction l as [|A l IH]; [constructor|]. cbn [isort fold_right]. rewrite <- insert_perm. constructor. exact IH.
  - induction l as [|A l IH]; [constructor|]. change (isort (A :: l)) with (insert A (isort l)). generalize (isort l) IH. clear. intros l S. induction S as [|B l S IH F]; cbn [insert]; [constructor; constructor|]. destruct (Z.leb_spec (fst (aff A)) (fst (aff B))) as [L|L].
    + constructor; [constructor; assumption|]. constructor; [exact L|]. rewrite Forall_forall in *. intros C I. specialize (F C I). lia.
    + constructor; [exact IH|]. rewrite Forall_forall in *. intros C I. apply (Permutation_in _ (Permutation_sym (insert_perm A l))) in I. destruct I as [<- | I]; [lia|apply F, I].
Qed.
(** two signers with keys 1 and 3 and nonce halves 1: the hypotheses of C65_honest hold with a hash of value 1 *)
Lemma even_mul d : exists z, (z = 1 \/ z = -1) /\ even (zm d G) = zm (z * d) G.
Proof.
  unfold even, sg. destruct (odd_y (zm d G)); [exists (-1)|exists 1]; (split; [tauto|]); [|f_equal; lia]. replace (-1 * d) with (- d) by lia. rewrite ZMO. reflexivity.
Qed.
Theorem C65_instance m : let TH := fun _ _ : bytes => be_fixed 32 1 in let sn := be_fixed 32 1 ++ be_fixed 32 1 in let l := [(1, sn); (3, sn)] in let keys := map (fun p => even (zm (fst p) G)) l in
  Forall (fun p : Z * bytes => 0 < fst p < N /\ k_of (firstn 32 (snd p)) <> 0 /\ k_of (skipn 32 (snd p)) <> 0) l /\
  exists cn c, agg_nonces (map (fun p => pub_nonce (snd p)) l) = Some cn /\ session TH isort cn keys false (Tweaks []) m = Ret (Some c) /\ regular TH m c /\ s_sum c <> ezero.
Proof.
  intros TH sn l keys0.
  assert (V1 : of_be (be_fixed 32 1) = 1) by (apply of_be_be_fixed; split; reflexivity || discriminate). assert (NB : 5 < N) by reflexivity.
  assert (F : firstn 32 sn = be_fixed 32 1) by reflexivity. assert (S : skipn 32 sn = be_fixed 32 1) by reflexivity.
  assert (K1 : k_of (firstn 32 sn) = 1) by (rewrite F; apply k_be; split; reflexivity || discriminate). assert (K2 : k_of (skipn 32 sn) = 1) by (rewrite S; apply k_be; split; reflexivity || discriminate).
  destruct (nonce_ok TH sn) as [P1 P2]; [rewrite K1; discriminate|rewrite K2; discriminate|]. rewrite K1 in P1. rewrite K2 in P2. rewrite ZM1 in P1, P2.
  set (H := zm 2 G). assert (H2 : H = eadd G G) by (unfold H; rewrite ZM2; reflexivity). assert (NH : H <> ezero) by (apply kg_nz; lia).
  assert (AN : agg_nonces (map (fun p => pub_nonce (snd p)) l) = Some (ser_jac H ++ ser_jac H)).
  { apply C65_nonces. exists [G; G], [G; G]. split; [exact (Forall2_cons _ _ P1 (Forall2_cons _ _ P1 (Forall2_nil _)))|]. split; [exact (Forall2_cons _ _ P2 (Forall2_cons _ _ P2 (Forall2_nil _)))|]. rewrite !psum_cons, psum_nil, e0r, H2. reflexivity. }
  fold keys0. set (keys := keys0) in *. unfold keys0 in keys.
  assert (CO : forall ks A fp su, coef TH ks A fp su = 1).
  { intros ks A fp su. unfold coef, TH. rewrite V1. destruct su as [i|]; [destruct (bytes_eqb _ _)|]; try reflexivity; apply Z.mod_small; lia. }
  set (Q := agg_sum TH keys (fingerprint TH keys) (second_unique keys)).
  assert (NQ : Q <> ezero).
  { unfold Q, agg_sum, keys, l. cbn [map fold_left fst]. rewrite !CO, !ZM1, EI. destruct (even_mul 1) as (x & X & EX). destruct (even_mul 3) as (y & Y & EY). rewrite ZM1 in EX. rewrite EX, EY, <- ZMA.
    destruct X as [-> | ->]; destruct Y as [-> | ->].
    - apply kg_nz. lia.
    - replace (1 * 1 + -1 * 3) with (- (2)) by lia. rewrite ZMO. apply neg_nz, kg_nz. lia.
    - apply kg_nz. lia.
    - replace (-1 * 1 + -1 * 3) with (- (4)) by lia. rewrite ZMO. apply neg_nz, kg_nz. lia. }
  assert (AK : agg_keys TH isort keys false (Tweaks []) = Ret (Some (Agg Q Q 1 0))) by reflexivity.
  assert (PF : parse_jac (firstn 33 (ser_jac H ++ ser_jac H)) = Some H /\ parse_jac (skipn 33 (ser_jac H ++ ser_jac H)) = Some H).
  { rewrite firstn_app, skipn_app, ser_jac_len, Nat.sub_diag, firstn_O, skipn_O, app_nil_r, firstn_all2, skipn_all2, app_nil_l by (rewrite ser_jac_len; lia). rewrite parse_ser_jac. split; reflexivity. }
  destruct PF as [PF1 PF2]. set (cn := ser_jac H ++ ser_jac H) in *.
  set (S4 := eadd H (zm 1 H)). assert (N4 : S4 <> ezero) by (unfold S4, H; rewrite ZM1, <- ZMA; apply kg_nz; lia).
  assert (SE : session TH isort cn keys false (Tweaks []) m = Ret (Some (Sess keys (Agg Q Q 1 0) 1 S4 S4 1))).
  { assert (M1 : 1 mod N = 1) by (apply Z.mod_small; lia). unfold session. rewrite AK. cbn [obind a_fin]. rewrite PF1, PF2. assert (HT : forall t b, of_be (TH t b) mod N = 1) by (intros; unfold TH; rewrite V1; exact M1). rewrite !HT. fold S4. rewrite is0_f by exact N4. cbn [sorted]. reflexivity. }
  split; [constructor; [|constructor; [|constructor]]; cbn [fst snd]; rewrite K1, K2; (split; [lia|split; discriminate])|].
  exists cn, (Sess keys (Agg Q Q 1 0) 1 S4 S4 1). split; [exact AN|]. split; [exact SE|]. split; [|exact N4]. split; [|exact NQ]. unfold TH. rewrite V1. lia.
Qed.
Theorem C65_example m : length m = 32%nat -> let TH := fun _ _ : bytes => be_fixed 32 1 in let sn := be_fixed 32 1 ++ be_fixed 32 1 in let l := [(1, sn); (3, sn)] in
  exists cn c ss, session TH isort cn (map (fun p => even (zm (fst p) G)) l) false (Tweaks []) m = Ret (Some c) /\ Forall2 (fun p s => psign TH isort (snd p) (fst p) cn (map (fun p => even (zm (fst p) G)) l) false (Tweaks []) m false = Ret (Some (s, s_r c))) l ss /\
    bverify TH (combine TH (s_r c) ss None) m (a_fin (s_agg c)) = true.
Proof.
  intros LM TH sn l. destruct C65_sort_exists as [SP SS]. destruct (C65_instance m) as (F & cn & c & AN & SE & RG & NS). exists cn, c.
  destruct (C65_honest TH isort SP SS l cn false (Tweaks []) m c None false F AN SE (or_intror (conj eq_refl eq_refl)) LM RG NS) as (ss & FS & BV). exists ss. split; [exact SE|]. split; [exact FS|exact BV].
Qed.
