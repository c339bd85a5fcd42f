(** PropMod.v -- property C32: modulus proofs. *)
From Verif Require Import Base BigInt HashFrame NumTh Euler RangeProofs IntMod Dln Random PropRandom Jacobi ModProof.
From Coq Require Import Znumtheory.

(** ** serialization *)
Definition mp_wf (pf : modproof) : Prop := length (mp_X pf) = mod_iters /\ length (mp_Z pf) = mod_iters.
Definition positive (o : option Z) : Prop := exists z, o = Some z /\ 0 < z.
(** every part present and positive -- as in every proof that verifies *)
Definition mp_full (pf : modproof) : Prop :=
  mp_wf pf /\ positive (mp_W pf) /\ positive (mp_A pf) /\ positive (mp_B pf) /\ Forall positive (mp_X pf) /\ Forall positive (mp_Z pf).

Lemma positive_parts l : Forall positive l -> forallb non_empty_bytes (big_ints_to_bytes l) = true /\ map (fun b => Some (of_be b)) (big_ints_to_bytes l) = l.
Proof.
  induction 1 as [|o l [z [-> Hz]] _ [IH1 IH2]]; [split; reflexivity|]. unfold big_ints_to_bytes in *. cbn [map forallb]. rewrite IH1, IH2, of_be_to_be_nonneg by lia.
  split; [|reflexivity]. pose proof (to_be_nonempty z Hz). destruct (to_be z); [contradiction|reflexivity].
Qed.
Lemma firstn_app_exact {A} (a b : list A) n : length a = n -> firstn n (a ++ b) = a.
Proof. intros <-. rewrite firstn_app, Nat.sub_diag, firstn_all. cbn [firstn]. apply app_nil_r. Qed.
Lemma skipn_app_exact {A} (a b : list A) n : length a = n -> skipn n (a ++ b) = b.
Proof. intros <-. now rewrite skipn_app, Nat.sub_diag, skipn_all. Qed.
Lemma nth_app_exact {A} (a b : list A) n k d : length a = n -> nth (n + k) (a ++ b) d = nth k b d.
Proof. intros <-. rewrite app_nth2 by lia. f_equal. lia. Qed.

Theorem C32_round_trip pf : mp_full pf -> exists bzs, mod_bytes pf = Ret bzs /\ Z.of_nat (length bzs) = mod_parts /\ mod_from_bytes bzs = Some pf.
Proof.
  destruct pf as [W X A B Zs]. unfold mp_full, mp_wf. cbn [mp_W mp_X mp_A mp_B mp_Z].
  intros [[LX LZ] [[w [-> Hw]] [[a [-> Ha]] [[b [-> Hb]] [FX FZ]]]]].
  destruct (positive_parts _ FX) as [EX MX]. destruct (positive_parts _ FZ) as [EZ MZ].
  eexists. split; [unfold mod_bytes; cbn [mp_W mp_X mp_A mp_B mp_Z deref obind]; reflexivity|].
  assert (L : length (to_be w :: big_ints_to_bytes X ++ [to_be a; to_be b] ++ big_ints_to_bytes Zs) = 163%nat).
  { cbn [length app]. rewrite !app_length. cbn [length]. unfold big_ints_to_bytes. rewrite !map_length, LX, LZ. reflexivity. }
  split; [rewrite L; reflexivity|]. unfold mod_from_bytes.
  replace (non_empty_multi _ _) with true.
  - cbn [negb]. cbv zeta. cbn [map]. rewrite map_app, map_app. cbn [map]. rewrite MX, MZ, !of_be_to_be_nonneg by lia.
    f_equal. change (mod_iters + 1)%nat with (S mod_iters). change (mod_iters + 2)%nat with (S (mod_iters + 1)). change (mod_iters + 3)%nat with (S (mod_iters + 2)).
    cbn [nth skipn]. f_equal.
    + apply firstn_app_exact. exact LX.
    + rewrite <- (Nat.add_0_r mod_iters). rewrite nth_app_exact by exact LX. reflexivity.
    + rewrite nth_app_exact by exact LX. reflexivity.
    + change (X ++ [Some a; Some b] ++ Zs) with (X ++ ([Some a; Some b] ++ Zs)). rewrite app_assoc. rewrite skipn_app_exact by (rewrite app_length, LX; reflexivity).
      apply firstn_all2. rewrite LZ. lia.
  - symmetry. apply C46_non_empty_multi. split; [discriminate|]. split; [intros e E; injection E as <-; unfold mod_parts; rewrite L; reflexivity|].
    apply Forall_forall. intros x Hx. assert (P : forall z, 0 < z -> to_be z <> []) by apply to_be_nonempty.
    assert (Q : forall l, forallb non_empty_bytes l = true -> In x l -> x <> []).
    { intros l F I. rewrite forallb_forall in F. specialize (F x I). now destruct x. }
    destruct Hx as [<-|Hx]; [now apply P|]. apply in_app_iff in Hx. destruct Hx as [Hx|Hx]; [now apply (Q _ EX)|].
    destruct Hx as [<-|[<-|Hx]]; [now apply P|now apply P|now apply (Q _ EZ)].
Qed.

(** a list of parts is refused exactly when there are not 163 of them or one is empty *)
Theorem C32_from_bytes_error bzs : mod_from_bytes bzs = None <-> Z.of_nat (length bzs) <> mod_parts \/ Exists (fun b => b = []) bzs.
Proof.
  unfold mod_from_bytes. destruct (non_empty_multi bzs (Some mod_parts)) eqn:E; cbn [negb].
  - split; [discriminate|]. apply C46_non_empty_multi in E. destruct E as [_ [L F]]. specialize (L _ eq_refl). intros [N|X]; [congruence|].
    apply Exists_exists in X. destruct X as [b [I ->]]. rewrite Forall_forall in F. destruct (F _ I eq_refl).
  - split; [|reflexivity]. intros _. destruct (Z.eq_dec (Z.of_nat (length bzs)) mod_parts) as [L|L]; [right|now left].
    apply Exists_exists. destruct (forallb non_empty_bytes bzs) eqn:F.
    + exfalso. assert (T : non_empty_multi bzs (Some mod_parts) = true); [|congruence]. apply C46_non_empty_multi. split; [|split].
      * intros ->. discriminate.
      * intros n H. congruence.
      * apply Forall_forall. intros b I. rewrite forallb_forall in F. specialize (F b I). now destruct b.
    + assert (X : existsb (fun b => negb (non_empty_bytes b)) bzs = true).
      { clear - F. induction bzs as [|b l IH]; [discriminate|]. cbn [forallb existsb] in *. destruct (non_empty_bytes b); cbn in *; [now apply IH|reflexivity]. }
      apply existsb_exists in X. destruct X as [b [I Nb]]. exists b. split; [assumption|]. now destruct b.
Qed.
(** reading and writing again gives the same integers without leading zero bytes *)
Theorem C32_reserialize bzs pf : mod_from_bytes bzs = Some pf -> mp_wf pf /\ mod_bytes pf = Ret (map strip0 bzs).
Proof.
  unfold mod_from_bytes. destruct (non_empty_multi bzs (Some mod_parts)) eqn:E; cbn [negb]; [|discriminate].
  apply C46_non_empty_multi in E. destruct E as [_ [L _]]. specialize (L _ eq_refl). unfold mod_parts in L.
  assert (Ln : length bzs = 163%nat) by lia. clear L.
  match goal with |- Some ?x = Some pf -> _ => intro H; assert (Epf : pf = x) by congruence; rewrite Epf; clear H Epf end.
  destruct bzs as [|w l]; [discriminate|]. cbn [length] in Ln. injection Ln as Ln.
  pose proof (firstn_skipn mod_iters l) as S1. set (x := firstn mod_iters l) in *. set (r := skipn mod_iters l) in *.
  assert (Lx : length x = mod_iters) by (unfold x; rewrite firstn_length, Ln; reflexivity).
  assert (Lr : length r = (mod_iters + 2)%nat) by (unfold r; rewrite skipn_length, Ln; reflexivity).
  clearbody x r. subst l. destruct r as [|a [|b z]]; [discriminate|discriminate|]. assert (Lz : length z = mod_iters) by (cbn [length] in Lr; injection Lr; intros; assumption).
  cbn [map]. rewrite map_app. cbn [map].
  change (mod_iters + 1)%nat with (S (mod_iters + 0)). change (mod_iters + 2)%nat with (S (mod_iters + 1)). change (mod_iters + 3)%nat with (S (mod_iters + 2)).
  set (f := fun b => Some (of_be b)).
  assert (Lfx : length (map f x) = mod_iters) by (rewrite map_length; exact Lx).
  assert (EX : firstn mod_iters (skipn 1 (f w :: map f x ++ f a :: f b :: map f z)) = map f x) by (cbn [skipn]; apply firstn_app_exact; exact Lfx).
  assert (EA : nth (S (mod_iters + 0)) (f w :: map f x ++ f a :: f b :: map f z) None = f a) by (cbn [nth]; rewrite nth_app_exact by exact Lfx; reflexivity).
  assert (EB : nth (S (mod_iters + 1)) (f w :: map f x ++ f a :: f b :: map f z) None = f b) by (cbn [nth]; rewrite nth_app_exact by exact Lfx; reflexivity).
  assert (EZ : firstn mod_iters (skipn (S (mod_iters + 2)) (f w :: map f x ++ f a :: f b :: map f z)) = map f z).
  { cbn [skipn]. change (map f x ++ f a :: f b :: map f z) with (map f x ++ [f a; f b] ++ map f z). rewrite app_assoc, skipn_app_exact by (rewrite app_length, Lfx; reflexivity).
    apply firstn_all2. rewrite map_length, Lz. lia. }
  unfold f in *. cbv beta in *.
  split.
  - split; cbn [mp_X mp_Z]; [rewrite EX; exact Lfx|rewrite EZ, map_length; exact Lz].
  - unfold mod_bytes. cbn [mp_W mp_X mp_A mp_B mp_Z]. rewrite EX, EA, EB, EZ. cbn [nth deref obind]. rewrite !to_be_of_be. f_equal. f_equal.
    assert (M : forall l, big_ints_to_bytes (map (fun b => Some (of_be b)) l) = map strip0 l).
    { intro l. unfold big_ints_to_bytes. rewrite map_map. apply map_ext. intro. apply to_be_of_be. }
    rewrite !M, map_app. reflexivity.
Qed.

(** ** verification *)
  Lemma mod_adj_spec W N Y a b : 0 < N -> cong N (mod_adj W N Y a b) ((if 0 <? b then W else 1) * ((if 0 <? a then -1 else 1) * Y)).
  Proof.
    intro Hn. unfold mod_adj. destruct (0 <? a), (0 <? b); repeat rewrite cong_mod by lia; rewrite ?Z.mul_1_l; reflexivity.
  Qed.
  Lemma mod_adj_range W N Y a b : 0 <= Y < N -> 0 <= mod_adj W N Y a b < N.
  Proof.
    intro Hy. unfold mod_adj. assert (Hn : 0 < N) by lia. destruct (0 <? a), (0 <? b); try (apply Z.mod_pos_bound; exact Hn); exact Hy.
  Qed.

Section Verify.
  Variable H : bytes -> bytes.
  Notation ys := (mod_ys H).

  Lemma mod_ys_length s W N k : length (ys s W N k) = k.
  Proof. induction k as [|k IH]; [reflexivity|]. cbn [mod_ys]. rewrite app_length, IH. cbn. lia. Qed.
  Lemma mod_ys_firstn s W N k i : (i <= k)%nat -> firstn i (ys s W N k) = ys s W N i.
  Proof.
    induction k as [|k IH]; intro L; [replace i with O by lia; reflexivity|].
    destruct (Nat.eq_dec i (S k)) as [->|Ne]; [apply firstn_all2; rewrite mod_ys_length; lia|].
    cbn [mod_ys]. rewrite firstn_app, mod_ys_length. replace (i - k)%nat with O by lia. cbn [firstn]. rewrite app_nil_r. apply IH. lia.
  Qed.
  (** each challenge is the tagged hash of W, N and the challenges before it, modulo N *)
  Theorem C32_challenges s W N k i y : nth_error (ys s W N k) i = Some y ->
    exists e, sha_tagged H s (map Some (W :: N :: firstn i (ys s W N k))) = Some e /\ y = e mod N.
  Proof.
    intro E. assert (L : (i < k)%nat) by (rewrite <- (mod_ys_length s W N k); apply nth_error_Some; congruence).
    rewrite mod_ys_firstn by lia. rewrite <- (firstn_skipn (S i) (ys s W N k)) in E.
    rewrite mod_ys_firstn in E by lia. rewrite nth_error_app1 in E by (rewrite mod_ys_length; lia). cbn [mod_ys] in E.
    rewrite nth_error_app2 in E by (rewrite mod_ys_length; lia). rewrite mod_ys_length, Nat.sub_diag in E. cbn [nth_error] in E.
    injection E as <-. eexists. split; reflexivity.
  Qed.
  Lemma mod_ys_range s W N k y : 0 < N -> In y (ys s W N k) -> 0 <= y < N.
  Proof.
    intros Hn I. apply In_nth_error in I. destruct I as [i E]. apply C32_challenges in E. destruct E as [e [_ ->]]. now apply Z.mod_pos_bound.
  Qed.

  Variable pp : Z -> bool.
  Notation verify := (mod_verify H pp).
  (** what acceptance means: every check listed in the code, with the two families of equations as congruences *)
  Theorem C32_verify s N pf : mp_wf pf ->
    verify s N (Some pf) = Ret true <->
    exists W A B, mp_W pf = Some W /\ mp_A pf = Some A /\ mp_B pf = Some B /\
      0 < W < N /\ Z.odd N = true /\ jac W N <> Ret 1 /\ pp N = false /\ bitlen A = 81 /\ bitlen B = 81 /\
      forall i, (i < 80)%nat -> exists x z y,
        nth_error (mp_X pf) i = Some (Some x) /\ nth_error (mp_Z pf) i = Some (Some z) /\ nth_error (ys s W N 80) i = Some y /\
        0 < x < N /\ 0 < z < N /\ (N | z ^ N - y) /\
        (N | x ^ 4 - (if Z.testbit A (Z.of_nat i) then -1 else 1) * (if Z.testbit B (Z.of_nat i) then W else 1) * y).
  Proof.
    destruct pf as [oW X oA oB Zs]. intros [LX LZ]. cbn [mp_X mp_Z] in LX, LZ. unfold mod_verify. cbn [mp_W mp_X mp_A mp_B mp_Z].
    destruct oW as [W|]; [|split; [discriminate|intros (W & A & B & E & _); discriminate]].
    destruct oA as [A|]; [|cbn [is_some andb]; rewrite andb_false_r; split; [discriminate|intros (W' & A & B & _ & E & _); discriminate]].
    destruct oB as [B|]; [|cbn [is_some andb]; rewrite andb_false_r; split; [discriminate|intros (W' & A' & B & _ & _ & E & _); discriminate]].
    cbn [is_some andb opt0]. rewrite !andb_true_r.
    assert (NilX : forallb is_some X = true <-> exists xs, X = map Some xs).
    { clear. induction X as [|o l IH]; cbn [forallb]; [split; [now exists []|reflexivity]|]. split.
      - intro E. apply andb_true_iff in E. destruct E as [E1 E2]. apply IH in E2. destruct E2 as [xs ->]. destruct o as [x|]; [|discriminate]. now exists (x :: xs).
      - intros [[|x xs] E]; [discriminate|]. cbn in E. injection E as -> ->. cbn [is_some andb]. apply IH. now exists xs. }
    assert (NilZ : forallb is_some Zs = true <-> exists xs, Zs = map Some xs).
    { clear. induction Zs as [|o l IH]; cbn [forallb]; [split; [now exists []|reflexivity]|]. split.
      - intro E. apply andb_true_iff in E. destruct E as [E1 E2]. apply IH in E2. destruct E2 as [xs ->]. destruct o as [x|]; [|discriminate]. now exists (x :: xs).
      - intros [[|x xs] E]; [discriminate|]. cbn in E. injection E as -> ->. cbn [is_some andb]. apply IH. now exists xs. }
    destruct (forallb is_some X && forallb is_some Zs) eqn:NF.
    2:{ cbn [negb]. split; [discriminate|]. intros (W' & A' & B' & _ & _ & _ & _ & _ & _ & _ & _ & _ & F). exfalso.
        assert (G : forallb is_some X = true /\ forallb is_some Zs = true); [|destruct G as [G1 G2]; rewrite G1, G2 in NF; discriminate].
        split; apply forallb_forall; intros o I; apply In_nth_error in I; destruct I as [i E];
          assert (i < 80)%nat by (change 80%nat with mod_iters; first [solve [rewrite <- LX; apply nth_error_Some; congruence]|rewrite <- LZ; apply nth_error_Some; congruence]);
          destruct (F i ltac:(assumption)) as (x & z & y & E1 & E2 & _); [rewrite E in E1; injection E1 as ->|rewrite E in E2; injection E2 as ->]; reflexivity. }
    apply andb_true_iff in NF. destruct NF as [NX NZ]. apply NilX in NX. apply NilZ in NZ. destruct NX as [xs ->]. destruct NZ as [zs ->].
    rewrite map_length in LX, LZ. cbn [negb]. rewrite !map_map. cbn [opt0]. rewrite !map_id.
    assert (Rng : forall l, length l = mod_iters -> forallb (fun z => (0 <? z) && (z <? N)) l = true <-> forall i, (i < 80)%nat -> exists x, nth_error l i = Some x /\ 0 < x < N).
    { intros l L. rewrite forallb_forall. split.
      - intros F i Hi. destruct (nth_error l i) as [x|] eqn:E; [|apply nth_error_None in E; unfold mod_iters in L; lia]. exists x. split; [reflexivity|].
        specialize (F x (nth_error_In _ _ E)). lia.
      - intros F x I. apply In_nth_error in I. destruct I as [i E]. assert (i < 80)%nat by (change 80%nat with mod_iters; rewrite <- L; apply nth_error_Some; congruence).
        destruct (F i ltac:(assumption)) as [x' [E' R]]. rewrite E in E'. injection E' as <-. lia. }
    unfold jac at 1. destruct (Z.even N) eqn:Ev; cbn [obind].
    { split; [discriminate|]. intros (W' & A' & B' & _ & _ & _ & _ & O & _). rewrite <- Z.negb_even, Ev in O. discriminate. }
    set (jv := _ * jacobi_pos W (Z.abs N)).
    assert (Ej : jac W N = Ret jv) by (unfold jac; rewrite Ev; reflexivity).
    destruct (Z.eqb_spec jv 1) as [J1|J1].
    { split; [discriminate|]. intros (W' & A' & B' & E & _ & _ & _ & _ & Nj & _). injection E as <-. congruence. }
    destruct (Z.ltb_spec 0 W) as [W0|W0]; cbn [andb negb].
    2:{ split; [discriminate|]. intros (W' & A' & B' & E & _ & _ & R & _). injection E as <-. lia. }
    destruct (Z.ltb_spec W N) as [W1|W1]; cbn [andb negb].
    2:{ split; [discriminate|]. intros (W' & A' & B' & E & _ & _ & R & _). injection E as <-. lia. }
    assert (Hn : 0 < N) by lia.
    destruct (forallb _ zs) eqn:FZ; cbn [negb].
    2:{ split; [discriminate|]. intros (W' & A' & B' & _ & _ & _ & _ & _ & _ & _ & _ & _ & F). exfalso. assert (K : forallb (fun z => (0 <? z) && (z <? N)) zs = true); [|congruence].
        apply Rng; [exact LZ|]. intros i Hi. destruct (F i Hi) as (x & z & y & _ & E & _ & _ & R & _). exists z. split; [|exact R].
        rewrite nth_error_map in E. destruct (nth_error zs i); [cbn in E; injection E as <-; reflexivity|discriminate]. }
    destruct (forallb _ xs) eqn:FX; cbn [negb].
    2:{ split; [discriminate|]. intros (W' & A' & B' & _ & _ & _ & _ & _ & _ & _ & _ & _ & F). exfalso. assert (K : forallb (fun z => (0 <? z) && (z <? N)) xs = true); [|congruence].
        apply Rng; [exact LX|]. intros i Hi. destruct (F i Hi) as (x & z & y & E & _ & _ & R & _). exists x. split; [|exact R].
        rewrite nth_error_map in E. destruct (nth_error xs i); [cbn in E; injection E as <-; reflexivity|discriminate]. }
    destruct (Z.eqb_spec (bitlen A) 81) as [BA|BA]; cbn [negb].
    2:{ split; [discriminate|]. intros (W' & A' & B' & _ & E & _ & _ & _ & _ & _ & R & _). injection E as <-. contradiction. }
    destruct (Z.eqb_spec (bitlen B) 81) as [BB|BB]; cbn [negb].
    2:{ split; [discriminate|]. intros (W' & A' & B' & _ & _ & E & _ & _ & _ & _ & _ & R & _). injection E as <-. contradiction. }
    cbn [orb]. destruct (pp N) eqn:PN.
    { split; [discriminate|]. intros (W' & A' & B' & _ & _ & _ & _ & _ & _ & R & _). discriminate. }
    rewrite oforall_i_true.
    assert (Eq : forall i y x z, 0 <= y < N ->
       (let! l1 := deref (mi_exp N z N) in let! l2 := deref (mi_exp N x 4) in Ret ((l1 =? y) && (l2 =? mod_adj W N y (bit01 A i) (bit01 B i)))) = Ret true <->
       (N | z ^ N - y) /\ (N | x ^ 4 - (if Z.testbit A (Z.of_nat i) then -1 else 1) * (if Z.testbit B (Z.of_nat i) then W else 1) * y)).
    { intros i y x z Ry. rewrite !mi_exp_pos, !expm_nonneg by lia. cbn [deref obind].
      assert (K : ((z ^ N mod N =? y) && (x ^ 4 mod N =? mod_adj W N y (bit01 A i) (bit01 B i)) = true <->
         (N | z ^ N - y) /\ (N | x ^ 4 - (if Z.testbit A (Z.of_nat i) then -1 else 1) * (if Z.testbit B (Z.of_nat i) then W else 1) * y))).
      { pose proof (mod_adj_range W N y (bit01 A i) (bit01 B i) Ry) as Ra. pose proof (mod_adj_spec W N y (bit01 A i) (bit01 B i) Hn) as Sa.
        rewrite andb_true_iff, !Z.eqb_eq.
        assert (T1 : z ^ N mod N = y <-> cong N (z ^ N) y) by (rewrite cong_eq by lia; rewrite (Z.mod_small y N) by lia; reflexivity).
        assert (T2 : x ^ 4 mod N = mod_adj W N y (bit01 A i) (bit01 B i) <-> cong N (x ^ 4) (mod_adj W N y (bit01 A i) (bit01 B i))) by (rewrite cong_eq by lia; rewrite (Z.mod_small (mod_adj _ _ _ _ _) N) by lia; reflexivity).
        rewrite T1, T2, Sa. unfold bit01.
        replace ((if 0 <? (if Z.testbit B (Z.of_nat i) then 1 else 0) then W else 1) * ((if 0 <? (if Z.testbit A (Z.of_nat i) then 1 else 0) then -1 else 1) * y))
          with ((if Z.testbit A (Z.of_nat i) then -1 else 1) * (if Z.testbit B (Z.of_nat i) then W else 1) * y); [reflexivity|].
        destruct (Z.testbit A (Z.of_nat i)), (Z.testbit B (Z.of_nat i)); change (0 <? 1) with true; change (0 <? 0) with false; cbv iota; ring. }
      rewrite <- K. split; [intro E; now injection E|congruence]. }
    assert (Len : length (ys s W N mod_iters) = 80%nat) by apply mod_ys_length.
    split.
    - intro F. exists W, A, B. repeat (split; [first [reflexivity|assumption|lia|(rewrite <- Z.negb_even, Ev; reflexivity)|congruence]|]).
      intros i Hi.
      destruct (proj1 (Rng xs LX) FX i Hi) as [x [Ex Rx]]. destruct (proj1 (Rng zs LZ) FZ i Hi) as [z [Ez Rz]].
      destruct (nth_error (ys s W N mod_iters) i) as [y|] eqn:Ey; [|apply nth_error_None in Ey; lia].
      exists x, z, y. rewrite !nth_error_map, Ex, Ez. cbn [option_map].
      pose proof (mod_ys_range s W N _ y Hn (nth_error_In _ _ Ey)) as Ry.
      specialize (F i (y, (x, z))). rewrite !nth_error_combine, Ey, Ex, Ez in F. specialize (F eq_refl). cbn [Nat.add] in F. apply Eq in F; [|exact Ry]. destruct F as [F1 F2]. split; [reflexivity|]. split; [reflexivity|]. split; [exact Ey|]. tauto.
    - intros (W' & A' & B' & EW & EA & EB & _ & _ & _ & _ & _ & _ & F). injection EW as <-. injection EA as <-. injection EB as <-.
      intros i [y [x z]] E. rewrite !nth_error_combine in E. destruct (nth_error (ys s W N mod_iters) i) as [y'|] eqn:Ey; [|discriminate].
      assert (Hi : (i < 80)%nat) by (rewrite <- Len; apply nth_error_Some; congruence).
      destruct (F i Hi) as (x0 & z0 & y0 & Ex & Ez & Ey0 & _ & _ & D1 & D2). change 80%nat with mod_iters in Ey0. rewrite Ey in Ey0. injection Ey0 as ->.
      rewrite nth_error_map in Ex, Ez. destruct (nth_error xs i) as [x1|]; [|discriminate]. destruct (nth_error zs i) as [z1|]; [|discriminate].
      cbn [option_map] in Ex, Ez. injection Ex as ->. injection Ez as ->. injection E as -> -> ->. cbn [Nat.add].
      pose proof (mod_ys_range s W N _ y Hn (nth_error_In _ _ Ey)) as Ry. apply Eq; tauto.
  Qed.
End Verify.
