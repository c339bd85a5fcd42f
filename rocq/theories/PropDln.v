(** PropDln.v -- C31: DLN proofs. *)
From Coq Require Import Znumtheory.
From Verif Require Import Base BigInt HashFrame NumTh IntMod Commit Dln PropCommit.

(** The challenge of a proof: the hash of h1, h2, N and all commitments. *)
Definition dln_chal (H : bytes -> bytes) (h1 h2 N : Z) (al : list Z) : Z := of_be (H (frame (map to_be (h1 :: h2 :: N :: al)))).

Section C31.
  Variable H : bytes -> bytes.
  Lemma eqn_check N h1 h2 alpha t c i : 0 < N -> 0 <= t ->
    (let! l := deref (mi_exp N h1 t) in let! e := deref (mi_exp N h2 (bit01 c i)) in let! r := mi_mul N alpha e in Ret (l =? r)) =
    Ret ((h1 ^ t) mod N =? (alpha * h2 ^ bit01 c i) mod N).
  Proof.
    intros P T. assert (0 <= bit01 c i) by (unfold bit01; destruct (Z.testbit _ _); lia).
    rewrite !mi_exp_pos, !expm_nonneg by assumption. cbn [deref obind]. unfold mi_mul. rewrite big_mod_pos by exact P. cbn [obind].
    rewrite Z.mul_mod_idemp_r by lia. reflexivity.
  Qed.

  (** Verification of a proof with all numbers present and non-negative exponents (what UnmarshalDLNProof and
      NewDLNProof produce) never panics and decides exactly the listed conditions. *)
  Theorem C31_verify_exact al ts h1 h2 N : length al = dln_iters -> length ts = dln_iters -> Forall (fun t => 0 <= t) ts ->
    exists b, dln_verify H (Some {| dl_alpha := map Some al; dl_t := map Some ts |}) h1 h2 N = Ret b /\
      (b = true <-> 0 < N /\ 1 < h1 mod N /\ 1 < h2 mod N /\ h1 mod N <> h2 mod N /\
         forall i alpha t, nth_error al i = Some alpha -> nth_error ts i = Some t ->
           1 < alpha mod N /\ 1 < t mod N /\ (N | h1 ^ t - alpha * h2 ^ bit01 (dln_chal H h1 h2 N al) i)).
  Proof.
    intros LA LT FT. unfold dln_verify.
    destruct (Z.ltb_spec 0 N) as [P|P]; cbn [negb]; [|exists false; split; [reflexivity|split; [discriminate|lia]]].
    rewrite !in_group_pos, !big_mod_pos by exact P. cbn [obind].
    destruct (Z.ltb_spec 1 (h1 mod N)) as [A1|A1]; cbn [negb]; [|exists false; split; [reflexivity|split; [discriminate|lia]]].
    destruct (Z.ltb_spec 1 (h2 mod N)) as [A2|A2]; cbn [negb]; [|exists false; split; [reflexivity|split; [discriminate|lia]]].
    destruct (Z.eqb_spec (h1 mod N) (h2 mod N)) as [A3|A3]; [exists false; split; [reflexivity|split; [discriminate|tauto]]|].
    assert (G : forall l : list Z, oforall_i (fun _ : nat => in_group N) 0 (map Some l) = Ret (forallb (fun v => 1 <? v mod N) l)).
    { intro l. generalize 0%nat. induction l as [|v l IH]; intro k; [reflexivity|]. cbn [map oforall_i forallb]. rewrite in_group_pos by exact P. cbn [obind].
      destruct (1 <? v mod N); cbn [andb]; [apply IH|reflexivity]. }
    cbn [dl_t dl_alpha]. rewrite !G. cbn [obind].
    assert (FF : forall l : list Z, forallb (fun v => 1 <? v mod N) l = true <-> forall i v, nth_error l i = Some v -> 1 < v mod N).
    { intro l. rewrite forallb_forall. split; [intros F i v I; apply nth_error_In in I; apply F in I; lia|]. intros F v I. apply In_nth_error in I. destruct I as [i I]. apply F in I. lia. }
    destruct (forallb _ ts) eqn:B1; cbn [negb].
    2: { exists false. split; [reflexivity|]. split; [discriminate|]. intros (_ & _ & _ & _ & F). enough (false = true) by discriminate. rewrite <- B1. apply FF.
         intros i t I. destruct (nth_error al i) as [alpha|] eqn:E; [apply (F i alpha t E I)|]. apply nth_error_None in E.
         assert (i < length ts)%nat by (apply nth_error_Some; congruence). lia. }
    destruct (forallb _ al) eqn:B2; cbn [negb].
    2: { exists false. split; [reflexivity|]. split; [discriminate|]. intros (_ & _ & _ & _ & F). enough (false = true) by discriminate. rewrite <- B2. apply FF.
         intros i alpha I. destruct (nth_error ts i) as [t|] eqn:E; [apply (F i alpha t I E)|]. apply nth_error_None in E.
         assert (i < length al)%nat by (apply nth_error_Some; congruence). lia. }
    rewrite derefs_some. cbn [obind sha_ints deref]. fold (dln_chal H h1 h2 N al). set (c := dln_chal H h1 h2 N al).
    rewrite (oforall_i_ok _ (fun i at_ => match at_ with (Some alpha, Some t) => (h1 ^ t) mod N =? (alpha * h2 ^ bit01 c i) mod N | _ => false end)).
    2: { intros j [oa ot] I. rewrite nth_error_combine, !nth_error_map in I. destruct (nth_error al j) as [alpha|] eqn:Ea; [|discriminate]. cbn [option_map] in I.
         destruct (nth_error ts j) as [t|] eqn:Et; [|discriminate]. cbn [option_map] in I. injection I as <- <-. apply eqn_check; [exact P|].
         rewrite Forall_forall in FT. apply FT. apply nth_error_In in Et. exact Et. }
    eexists. split; [reflexivity|]. rewrite forallb_forall. split.
    - intro F. split; [exact P|]. split; [exact A1|]. split; [exact A2|]. split; [exact A3|]. intros i alpha t Ea Et.
      split; [apply (proj1 (FF al) B2 i); exact Ea|]. split; [apply (proj1 (FF ts) B1 i); exact Et|].
      specialize (F (i, (Some alpha, Some t))). cbn [fst snd] in F. change (cong N (h1 ^ t) (alpha * h2 ^ bit01 c i)). apply cong_eq; [exact P|]. apply Z.eqb_eq, F.
      apply (nth_error_In _ i). rewrite nth_error_combine, nth_error_seq0; [rewrite nth_error_combine, !nth_error_map, Ea, Et; reflexivity|].
      rewrite combine_length, !map_length. assert (i < length al)%nat by (apply nth_error_Some; congruence). lia.
    - intros (_ & _ & _ & _ & F) [j [oa ot]] I. cbn [fst snd]. apply In_nth_error in I. destruct I as [i I]. rewrite nth_error_combine in I.
      destruct (nth_error (seq 0 _) i) as [j'|] eqn:Ej; [|discriminate]. rewrite nth_error_combine, !nth_error_map in I.
      destruct (nth_error al i) as [alpha|] eqn:Ea; [|discriminate]. destruct (nth_error ts i) as [t|] eqn:Et; [|discriminate]. cbn [option_map] in I. injection I as <- <- <-.
      assert (Li : (i < length (combine (map (@Some Z) al) (map (@Some Z) ts)))%nat).
      { assert (nth_error (seq 0 (length (combine (map (@Some Z) al) (map (@Some Z) ts)))) i <> None) as NN by congruence. apply nth_error_Some in NN. rewrite seq_length in NN. exact NN. }
      rewrite nth_error_seq0 in Ej by exact Li. injection Ej as <-. apply Z.eqb_eq. apply cong_eq; [exact P|]. apply (F i alpha t Ea Et).
  Qed.

  (** Completeness: with h1^(pq) = 1 and h2 = h1^x mod N, an honestly made proof verifies exactly when none of the
      numbers in it happens to be 0 or 1 modulo N.  *)
  Theorem C31_complete h1 h2 x p q N a : 1 < N -> 0 <= x -> 0 < p * q -> (N | h1 ^ (p * q) - 1) -> (N | h2 - h1 ^ x) ->
    1 < h1 mod N -> 1 < h2 mod N -> h1 mod N <> h2 mod N -> length a = dln_iters -> Forall (fun ai => 0 <= ai < p * q) a ->
    exists al ts, dln_new H h1 h2 x p q N a = Ret {| dl_alpha := map Some al; dl_t := map Some ts |} /\
      length al = dln_iters /\ length ts = dln_iters /\ Forall (fun t => 0 <= t < p * q) ts /\ Forall (fun v => 0 <= v < N) al /\
      (dln_verify H (Some {| dl_alpha := map Some al; dl_t := map Some ts |}) h1 h2 N = Ret true <->
       Forall (fun v => 1 < v) al /\ Forall (fun t => 1 < t mod N) ts).
  Proof.
    intros N1 X PQ O D A1 A2 A3 LA FA. assert (P : 0 < N) by lia. rewrite Forall_forall in FA.
    set (al := map (fun ai => h1 ^ ai mod N) a). set (c := dln_chal H h1 h2 N al).
    set (g := fun (i : nat) ai => (ai + (bit01 c i * x) mod (p * q)) mod (p * q)).
    set (ts := map (fun ja => g (fst ja) (snd ja)) (combine (seq 0 (length a)) a)).
    assert (Lal : length al = dln_iters) by (unfold al; rewrite map_length; exact LA).
    assert (Lts : length ts = dln_iters) by (unfold ts; rewrite map_length, combine_length, seq_length, Nat.min_id; exact LA).
    assert (Rts : Forall (fun t => 0 <= t < p * q) ts).
    { apply Forall_forall. intros t I. unfold ts in I. apply in_map_iff in I. destruct I as ([j ai] & <- & _). apply Z.mod_pos_bound. exact PQ. }
    assert (Ral : Forall (fun v => 0 <= v < N) al).
    { apply Forall_forall. intros v I. unfold al in I. apply in_map_iff in I. destruct I as (ai & <- & _). apply Z.mod_pos_bound. exact P. }
    exists al, ts. split; [|split; [exact Lal|split; [exact Lts|split; [exact Rts|split; [exact Ral|]]]]].
    - unfold dln_new. rewrite (omap_i_ok _ (fun _ ai => h1 ^ ai mod N)).
      2: { intros j ai I. apply nth_error_In in I. rewrite mi_exp_pos, expm_nonneg by (try exact P; apply FA; exact I). reflexivity. }
      cbn [obind]. replace (map (fun ja : nat * Z => h1 ^ snd ja mod N) (combine (seq 0 (length a)) a)) with al.
      2: { unfold al. clear. generalize 0%nat. induction a as [|ai a IH]; intro k; [reflexivity|]. cbn [length seq combine map snd]. f_equal. apply IH. }
      cbn [sha_ints deref obind]. fold (dln_chal H h1 h2 N al). fold c.
      rewrite (omap_i_ok _ g); [reflexivity|]. intros j ai _. unfold mi_mul, mi_add. rewrite big_mod_pos by exact PQ. cbn [obind]. rewrite big_mod_pos by exact PQ. reflexivity.
    - assert (FT : Forall (fun t => 0 <= t) ts) by (eapply Forall_impl; [|exact Rts]; cbn; lia).
      destruct (C31_verify_exact al ts h1 h2 N Lal Lts FT) as (b & -> & B). split.
      + intro E. injection E as ->. apply proj1 in B. specialize (B eq_refl). destruct B as (_ & _ & _ & _ & B). split; apply Forall_forall; intros v I.
        * apply In_nth_error in I. destruct I as [i I]. destruct (nth_error ts i) as [t|] eqn:Et.
          -- destruct (B i v t I Et) as (Q & _). rewrite Forall_forall in Ral. pose proof (Ral v (nth_error_In _ _ I)). rewrite Z.mod_small in Q by lia. exact Q.
          -- apply nth_error_None in Et. assert (i < length al)%nat by (apply nth_error_Some; congruence). lia.
        * apply In_nth_error in I. destruct I as [i I]. destruct (nth_error al i) as [t|] eqn:Et.
          -- destruct (B i t v Et I) as (_ & Q & _). exact Q.
          -- apply nth_error_None in Et. assert (i < length ts)%nat by (apply nth_error_Some; congruence). lia.
      + intros [Fa Ft]. f_equal. apply B. split; [exact P|]. split; [exact A1|]. split; [exact A2|]. split; [exact A3|]. intros i alpha t Ea Et.
        rewrite Forall_forall in Fa, Ft, Ral. pose proof (Ral _ (nth_error_In _ _ Ea)). pose proof (Fa _ (nth_error_In _ _ Ea)).
        split; [rewrite Z.mod_small by lia; assumption|]. split; [apply Ft, (nth_error_In _ _ Et)|].
        fold c. unfold al in Ea. rewrite nth_error_map in Ea. destruct (nth_error a i) as [ai|] eqn:Ei; [|discriminate]. cbn [option_map] in Ea. injection Ea as <-.
        unfold ts in Et. rewrite nth_error_map, nth_error_combine, Ei, nth_error_seq0 in Et by (apply nth_error_Some; congruence). cbn [option_map fst snd] in Et. injection Et as <-.
        pose proof (FA ai (nth_error_In _ _ Ei)) as Rai. unfold g.
        assert (B0 : 0 <= bit01 c i) by (unfold bit01; destruct (Z.testbit _ _); lia).
        rewrite Z.add_mod_idemp_r by lia. set (e := ai + bit01 c i * x). assert (E0 : 0 <= e) by (unfold e; nia).
        change (cong N (h1 ^ (e mod (p * q))) (h1 ^ ai mod N * h2 ^ bit01 c i)).
        assert (S1 : cong N (h1 ^ e) (h1 ^ (e mod (p * q)))).
        { rewrite (Z.div_mod e (p * q)) at 1 by lia. pose proof (Z.mod_pos_bound e (p * q) PQ). pose proof (Z.div_pos e (p * q) E0 PQ).
          rewrite Z.pow_add_r, Z.pow_mul_r by lia. rewrite (cong_pow N (h1 ^ (p * q)) 1 (e / (p * q)) O). rewrite Z.pow_1_l by lia. rewrite Z.mul_1_l. apply cong_refl. }
        rewrite <- S1. unfold e. rewrite Z.pow_add_r by nia. rewrite Z.mul_comm with (n := bit01 c i), Z.pow_mul_r by lia.
        rewrite (cong_mod N (h1 ^ ai)) by exact P. rewrite (cong_pow N h2 (h1 ^ x) (bit01 c i) D). apply cong_refl.
  Qed.
End C31.

(** Special soundness: two accepted proofs with the same commitments whose challenges differ in one bit give the
    discrete logarithm: h2 = h1^(t - t') mod N, written without a negative power. *)
Theorem C31_special_soundness H H' al ts ts' h1 h2 N i t t' :
  length al = dln_iters -> length ts = dln_iters -> length ts' = dln_iters -> Forall (fun t => 0 <= t) ts -> Forall (fun t => 0 <= t) ts' ->
  dln_verify H (Some {| dl_alpha := map Some al; dl_t := map Some ts |}) h1 h2 N = Ret true ->
  dln_verify H' (Some {| dl_alpha := map Some al; dl_t := map Some ts' |}) h1 h2 N = Ret true ->
  nth_error ts i = Some t -> nth_error ts' i = Some t' ->
  bit01 (dln_chal H h1 h2 N al) i = 1 -> bit01 (dln_chal H' h1 h2 N al) i = 0 ->
  (N | h1 ^ t - h1 ^ t' * h2).
Proof.
  intros La Lt Lt' Ft Ft' V V' Et Et' B1 B0.
  destruct (C31_verify_exact H al ts h1 h2 N La Lt Ft) as (b & E & (Q & _)). rewrite V in E. injection E as <-. specialize (Q eq_refl).
  destruct (C31_verify_exact H' al ts' h1 h2 N La Lt' Ft') as (b & E & (Q' & _)). rewrite V' in E. injection E as <-. specialize (Q' eq_refl).
  destruct (nth_error al i) as [alpha|] eqn:Ea; [|apply nth_error_None in Ea; assert (i < length ts)%nat by (apply nth_error_Some; congruence); lia].
  destruct Q as (_ & _ & _ & _ & Q). destruct Q' as (_ & _ & _ & _ & Q'). specialize (Q i alpha t Ea Et). specialize (Q' i alpha t' Ea Et').
  rewrite B1 in Q. rewrite B0 in Q'. destruct Q as (_ & _ & Q). destruct Q' as (_ & _ & Q'). rewrite Z.pow_1_r in Q. rewrite Z.pow_0_r, Z.mul_1_r in Q'.
  change (cong N (h1 ^ t) (h1 ^ t' * h2)). change (cong N (h1 ^ t) (alpha * h2)) in Q. change (cong N (h1 ^ t') alpha) in Q'. rewrite Q, Q'. apply cong_refl.
Qed.

(** Serialize then UnmarshalDLNProof returns the same proof. *)
Theorem C31_serialization al ts : length al = dln_iters -> length ts = dln_iters -> Forall (fun z => 0 <= z) al -> Forall (fun z => 0 <= z) ts ->
  exists bzs, dln_serialize {| dl_alpha := map Some al; dl_t := map Some ts |} = Some bzs /\
    dln_unmarshal bzs = Ret (Some {| dl_alpha := map Some al; dl_t := map Some ts |}).
Proof.
  intros La Lt Fa Ft. unfold dln_serialize. cbn [dl_alpha dl_t].
  destruct (proj2 (C29_secrets_exact [map Some al; map Some ts])) as [s E].
  { split; [cbn; lia|]. repeat constructor; rewrite map_length, ?La, ?Lt; vm_compute; discriminate. }
  rewrite E. eexists. split; [reflexivity|]. unfold dln_unmarshal.
  assert (S : s = map Some (Z.of_nat (length al) :: al ++ Z.of_nat (length ts) :: ts)).
  { unfold secrets in E. destruct (_ <? _); [discriminate|]. rewrite secrets_loop_spec in E. destruct (forallb _ _); [|discriminate]. injection E as <-.
    cbn [flat flat_map app]. rewrite !map_length, app_nil_r. rewrite map_cons, map_app. reflexivity. }
  assert (R : map (fun b => Some (of_be b)) (big_ints_to_bytes s) = s).
  { rewrite <- (map_map of_be Some). change (map of_be (big_ints_to_bytes s)) with (multi_bytes_to_ints (big_ints_to_bytes s)). rewrite S, C46_ints_round_trip; [reflexivity|].
    constructor; [lia|]. apply Forall_app. split; [exact Fa|]. constructor; [lia|exact Ft]. }
  rewrite R, (C29_round_trip [map Some al; map Some ts] s E); [|discriminate|cbn; destruct ts; [discriminate Lt|discriminate]]. cbn [obind].
  assert (K : forall l : list Z, length l = dln_iters -> copy128 (map Some l) = (map Some l, 128)).
  { intros l L. unfold copy128. rewrite firstn_all2 by (rewrite map_length, L; apply le_n). rewrite map_length, L. reflexivity. }
  rewrite !K by assumption. reflexivity.
Qed.
(** UnmarshalDLNProof accepts only two parts with at least 128 numbers each, and returns 128 non-nil non-negative numbers in each array. *)
Theorem C31_unmarshal_shape bzs pf : dln_unmarshal bzs = Ret (Some pf) ->
  exists al ts, pf = {| dl_alpha := map Some al; dl_t := map Some ts |} /\ length al = dln_iters /\ length ts = dln_iters /\ Forall (fun z => 0 <= z) al /\ Forall (fun z => 0 <= z) ts.
Proof.
  unfold dln_unmarshal. destruct (parse_secrets _) as [o|] eqn:E; cbn [obind]; [|discriminate]. destruct o as [[|a [|t [|? ?]]]|]; try discriminate.
  destruct (copy128 a) as [a' l1] eqn:Ca. destruct (Z.eqb_spec l1 128) as [L1|L1]; [|discriminate]. destruct (copy128 t) as [t' l2] eqn:Ct. destruct (Z.eqb_spec l2 128) as [L2|L2]; [|discriminate].
  intro Q. injection Q as <-. apply C29_parse_sound in E. destruct E as (_ & ls & tail & F & E & _). unfold copy128 in Ca, Ct. apply pair_equal_spec in Ca, Ct. destruct Ca as [<- L1']. destruct Ct as [<- L2'].
  inversion F as [|v1 ? ls' ? F1 F']; subst. inversion F' as [|v2 ? ls'' ? F2 F'']; subst. inversion F''; subst. cbn [combine flat_map fst snd] in E. rewrite app_nil_r in E.
  assert (G : forall l : list (option Z), (forall e, In e l -> In e (map (fun b => Some (of_be b)) bzs)) -> 128 <= Z.of_nat (length l) ->
    exists zs, firstn dln_iters l = map Some zs /\ length zs = dln_iters /\ Forall (fun z => 0 <= z) zs).
  { intros l I L. exists (map (fun o => match o with Some z => z | None => 0 end) (firstn dln_iters l)). split; [|split].
    - rewrite map_map. rewrite <- (map_id (firstn dln_iters l)) at 1. apply map_ext_in. intros e Ie.
      assert (In e l) by (rewrite <- (firstn_skipn dln_iters l); apply in_or_app; left; exact Ie).
      apply I, in_map_iff in H. destruct H as (b & <- & _). reflexivity.
    - rewrite map_length, firstn_length. change dln_iters with 128%nat. lia.
    - apply Forall_forall. intros z Iz. apply in_map_iff in Iz. destruct Iz as (e & <- & Ie). assert (In e l) by (rewrite <- (firstn_skipn dln_iters l); apply in_or_app; left; exact Ie).
      apply I, in_map_iff in H. destruct H as (b & <- & _). apply of_be_range. }
  destruct (G a) as (al & -> & Lal & Fal); [intros e I; rewrite E; cbn [app In]; right; rewrite <- app_assoc; apply in_or_app; left; exact I|lia|].
  destruct (G t) as (ts & -> & Lts & Fts); [intros e I; rewrite E; cbn [app In]; right; rewrite <- app_assoc; apply in_or_app; right; cbn [app In]; right; apply in_or_app; left; exact I|lia|].
  exists al, ts. auto.
Qed.

(** Numbers beyond the 128th in a part are silently dropped: different byte forms give one proof. *)
Lemma flat2_unmarshal (a t : list Z) : (length a <= 1000)%nat -> (length t <= 1000)%nat -> Forall (fun z => 0 <= z) a -> Forall (fun z => 0 <= z) t -> t <> [] ->
  dln_unmarshal (big_ints_to_bytes (flat [map Some a; map Some t])) =
    Ret (if (128 <=? length a)%nat && (128 <=? length t)%nat then Some {| dl_alpha := firstn dln_iters (map Some a); dl_t := firstn dln_iters (map Some t) |} else None).
Proof.
  intros La Lt Fa Ft NE. unfold dln_unmarshal.
  assert (S : flat [map Some a; map Some t] = map Some (Z.of_nat (length a) :: a ++ Z.of_nat (length t) :: t)).
  { cbn [flat flat_map app]. rewrite !map_length, app_nil_r. rewrite map_cons, map_app. reflexivity. }
  assert (R : map (fun b => Some (of_be b)) (big_ints_to_bytes (flat [map Some a; map Some t])) = flat [map Some a; map Some t]).
  { rewrite <- (map_map of_be Some). change (map of_be (big_ints_to_bytes ?s)) with (multi_bytes_to_ints (big_ints_to_bytes s)). rewrite S, C46_ints_round_trip; [reflexivity|].
    constructor; [lia|]. apply Forall_app. split; [exact Fa|]. constructor; [lia|exact Ft]. }
  assert (B : max_part_size = 1048576) by reflexivity.
  rewrite R. rewrite (C29_round_trip [map Some a; map Some t]); [| |discriminate|cbn; destruct t; [congruence|discriminate]].
  - cbn [obind]. unfold copy128. rewrite !map_length. f_equal.
    destruct (Nat.leb_spec 128 (length a)); destruct (Z.eqb_spec (Z.min 128 (Z.of_nat (length a))) 128); try lia; cbn [andb]; [|reflexivity].
    destruct (Nat.leb_spec 128 (length t)); destruct (Z.eqb_spec (Z.min 128 (Z.of_nat (length t))) 128); try lia; reflexivity.
  - unfold secrets. change (parts_cap <? Z.of_nat (length [map Some a; map Some t])) with false. cbv iota. rewrite secrets_loop_spec. cbn [forallb]. rewrite !map_length.
    destruct (Z.leb_spec (Z.of_nat (length a)) max_part_size); [|lia]. destruct (Z.leb_spec (Z.of_nat (length t)) max_part_size); [|lia]. reflexivity.
Qed.
Theorem C31_unmarshal_not_canonical_refuted : exists b b' pf, b <> b' /\ dln_unmarshal b = Ret (Some pf) /\ dln_unmarshal b' = Ret (Some pf).
Proof.
  exists (big_ints_to_bytes (flat [map Some (repeat 5 128); map Some (repeat 6 128)])), (big_ints_to_bytes (flat [map Some (repeat 5 128); map Some (repeat 6 129)])).
  assert (F : forall v n, 0 <= v -> Forall (fun z => 0 <= z) (repeat v n)) by (intros v n V; apply Forall_forall; intros z I; apply repeat_spec in I; lia).
  eexists. split; [|split; rewrite flat2_unmarshal; rewrite ?repeat_length; try lia; try (apply F; lia); try discriminate; reflexivity].
  intro E. apply (f_equal (@length _)) in E. vm_compute in E. discriminate.
Qed.
(** nil numbers are serialized as zero *)
Theorem C31_nil_becomes_zero_refuted : exists pf bzs pf', dln_serialize pf = Some bzs /\ dln_unmarshal bzs = Ret (Some pf') /\ pf' <> pf.
Proof.
  exists {| dl_alpha := repeat None 128; dl_t := repeat (Some 1) 128 |}, (big_ints_to_bytes (flat [map Some (repeat 0 128); map Some (repeat 1 128)])).
  eexists. split; [vm_compute; reflexivity|]. split; [rewrite flat2_unmarshal; rewrite ?repeat_length; try lia; try discriminate; try reflexivity; apply Forall_forall; intros z I; apply repeat_spec in I; lia|].
  discriminate.
Qed.
(** A nil proof is rejected; a proof with a nil response makes Verify panic (the nil test comes too late). *)
Theorem C31_nil_cases H : dln_verify H None 4 9 35 = Ret false /\ dln_verify H (Some {| dl_alpha := repeat (Some 4) 128; dl_t := repeat None 128 |}) 4 9 35 = Panic.
Proof. split; reflexivity. Qed.
(** Example, for every hash function: N = 35 = 5*7 (p = 2, q = 3), h1 = 4 of order 6, h2 = 4^5 = 9, randomness 3, 4, 5. *)
Definition c31_a : list Z := map (fun i => 3 + Z.of_nat (i mod 3)) (seq 0 128).
Theorem C31_example H : exists pf, dln_new H 4 9 5 2 3 35 c31_a = Ret pf /\ dln_verify H (Some pf) 4 9 35 = Ret true.
Proof.
  assert (Ra : Forall (fun ai => 3 <= ai < 6) c31_a).
  { apply Forall_forall. intros ai I. unfold c31_a in I. apply in_map_iff in I. destruct I as (i & <- & _). pose proof (Nat.mod_upper_bound i 3 ltac:(lia)). lia. }
  destruct (C31_complete H 4 9 5 2 3 35 c31_a) as (al & ts & E & La & Lt & Rt & Rl & V); [lia|lia|lia|exists 117; reflexivity|exists (-29); reflexivity|reflexivity|reflexivity|discriminate|reflexivity|eapply Forall_impl; [|exact Ra]; cbn; lia|].
  - eexists. split; [exact E|]. apply V. clear V La Lt Rt Rl.
    unfold dln_new in E. rewrite (omap_i_ok _ (fun _ ai => 4 ^ ai mod 35)) in E.
    2: { intros j ai I. rewrite Forall_forall in Ra. apply nth_error_In, Ra in I. rewrite mi_exp_pos, expm_nonneg by lia. reflexivity. }
    cbn [obind sha_ints deref] in E. set (c := of_be _) in E. clearbody c.
    rewrite (omap_i_ok _ (fun i ai => (ai + (bit01 c i * 5) mod 6) mod 6)) in E by (intros j ai _; unfold mi_mul, mi_add; rewrite big_mod_pos by lia; cbn [obind]; rewrite big_mod_pos by lia; reflexivity).
    cbn [obind] in E. assert (E1 := f_equal (fun o => match o with Ret p => (dl_alpha p, dl_t p) | Panic => ([], []) end) E). cbn [dl_alpha dl_t] in E1. clear E. apply pair_equal_spec in E1. destruct E1 as [Ea Et].
    assert (J : forall a b : list Z, map (@Some Z) a = map (@Some Z) b -> a = b).
    { induction a as [|x a IH]; intros [|y b] E; try discriminate; [reflexivity|]. injection E as -> E. f_equal. auto. }
    apply J in Ea, Et. rewrite Forall_forall in Ra. split; apply Forall_forall; intros v I.
    + rewrite <- Ea in I. apply in_map_iff in I. destruct I as ([j ai] & <- & I). apply in_combine_r, Ra in I. cbn [snd].
      assert (ai = 3 \/ ai = 4 \/ ai = 5) as [->|[->| ->]] by lia; reflexivity.
    + rewrite <- Et in I. apply in_map_iff in I. destruct I as ([j ai] & <- & I). apply in_combine_r, Ra in I. cbn [fst snd]. unfold bit01.
      assert (ai = 3 \/ ai = 4 \/ ai = 5) as [->|[->| ->]] by lia; destruct (Z.testbit _ _); reflexivity.
Qed.
(** The unconditional claim fails: randomness 0 makes an honest proof that is rejected. *)
Theorem C31_always_verifies_refuted H : exists a pf, length a = dln_iters /\ Forall (fun ai => 0 <= ai < 2 * 3) a /\ dln_new H 4 9 5 2 3 35 a = Ret pf /\ dln_verify H (Some pf) 4 9 35 <> Ret true.
Proof.
  assert (Ra : Forall (fun ai => 0 <= ai < 2 * 3) (repeat 0 128)) by (apply Forall_forall; intros z I; apply repeat_spec in I; lia).
  destruct (C31_complete H 4 9 5 2 3 35 (repeat 0 128)) as (al & ts & E & La & Lt & Rt & Rl & V); [lia|lia|lia|exists 117; reflexivity|exists (-29); reflexivity|reflexivity|reflexivity|discriminate|reflexivity|exact Ra|].
  - exists (repeat 0 128). eexists. split; [reflexivity|]. split; [exact Ra|]. split; [exact E|]. intro C. apply V in C. destruct C as [C _].
    unfold dln_new in E. rewrite (omap_i_ok _ (fun _ ai => 4 ^ ai mod 35)) in E by (intros j ai I; apply nth_error_In, repeat_spec in I; subst ai; reflexivity).
    cbn [obind sha_ints deref] in E. set (c := of_be _) in E. clearbody c.
    rewrite (omap_i_ok _ (fun i ai => (ai + (bit01 c i * 5) mod 6) mod 6)) in E by (intros j ai _; unfold mi_mul, mi_add; rewrite big_mod_pos by lia; cbn [obind]; rewrite big_mod_pos by lia; reflexivity).
    cbn [obind] in E. assert (E1 := f_equal (fun o => match o with Ret p => dl_alpha p | Panic => [] end) E). cbn [dl_alpha] in E1.
    destruct al as [|v al]; [discriminate La|]. cbn in E1. injection E1 as E1 _. inversion C; subst. lia.
Qed.
