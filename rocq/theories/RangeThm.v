(** RangeThm.v -- completeness of the range proofs and what their verification establishes. *)
From Verif Require Import Base BigInt Text Wire Messages Save Curve NumTh Carmichael Paillier RangeProofs.
From Coq Require Import Znumtheory.

Lemma two_pow_unit a k b l m : 0 < m -> Z.gcd a m = 1 -> Z.gcd b m = 1 ->
  exists x y, expm a k m = Some x /\ expm b l m = Some y /\ two_pow a k b l m = Ret ((x * y) mod m) /\
              Z.gcd ((x * y) mod m) m = 1.
Proof.
  intros Hm Ha Hb. destruct (expm_unit a k m Hm Ha) as [x Hx]. destruct (expm_unit b l m Hm Hb) as [y Hy].
  exists x, y. unfold two_pow. rewrite Hx, Hy. split; [reflexivity|]. split; [reflexivity|]. split; [reflexivity|].
  rewrite (gcd_cong m _ (x * y)) by (apply cong_mod; lia).
  apply gcd_mul_1; [exact (expm_gcd _ _ _ _ Hm Ha Hx)|exact (expm_gcd _ _ _ _ Hm Hb Hy)].
Qed.

(** s^(alpha+ek) t^(gamma+e mu) = (s^alpha t^gamma)(s^k t^mu)^e *)
Lemma ped_complete s t m k mu al ga e Sv Cc : 0 < m -> Z.gcd s m = 1 -> Z.gcd t m = 1 ->
  two_pow s k t mu m = Ret Sv -> two_pow s al t ga m = Ret Cc ->
  exists Se sz tz, expm Sv e m = Some Se /\ expm s (al + e * k) m = Some sz /\ expm t (ga + e * mu) m = Some tz /\
    (Cc * Se) mod m = (sz * tz) mod m.
Proof.
  intros Hm Hs Ht ES EC.
  destruct (two_pow_unit s k t mu m Hm Hs Ht) as (a & b & Ea & Eb & E1 & _). rewrite E1 in ES. inversion ES; subst Sv. clear ES E1.
  destruct (two_pow_unit s al t ga m Hm Hs Ht) as (c & d & Ec & Ed & E1 & _). rewrite E1 in EC. inversion EC; subst Cc. clear EC E1.
  assert (Ga := expm_gcd _ _ _ _ Hm Hs Ea). assert (Gb := expm_gcd _ _ _ _ Hm Ht Eb).
  destruct (expm_unit a e m Hm Ga) as [ae Eae]. destruct (expm_unit b e m Hm Gb) as [be Ebe].
  rewrite (expm_cong ((a * b) mod m) (a * b)) by (auto; apply cong_mod; lia).
  rewrite (expm_mul a b e m ae be) by auto.
  rewrite <- (expm_expm s k e m a Hm Hs Ea) in Eae. rewrite <- (expm_expm t mu e m b Hm Ht Eb) in Ebe.
  rewrite (Z.mul_comm e k), (Z.mul_comm e mu).
  rewrite (expm_add s al (k * e) m c ae) by auto. rewrite (expm_add t ga (mu * e) m d be) by auto.
  eexists _, _, _. repeat split; try reflexivity.
  apply cong_eq; [lia|]. rewrite !cong_mod by lia. replace (c * d * (ae * be)) with (c * ae * (d * be)) by ring. reflexivity.
Qed.

Lemma add_pow_lift N y t k : 0 <= k -> cong (N * N) ((y + t * N) ^ k * y) ((y + k * t * N) * y ^ k).
Proof.
  revert k. apply natlike_ind; [rewrite !Z.pow_0_r; exists 0; ring|].
  intros k Hk IH. rewrite !Z.pow_succ_r by lia.
  replace ((y + t * N) * (y + t * N) ^ k * y) with ((y + t * N) * ((y + t * N) ^ k * y)) by ring.
  rewrite IH. exists (t * k * t * y ^ k). unfold Z.succ. ring.
Qed.
(** x = y mod N implies x^N = y^N mod N^2 (y a unit) *)
Lemma pow_lift N x y : 1 < N -> Z.gcd y N = 1 -> cong N x y -> cong (N * N) (x ^ N) (y ^ N).
Proof.
  intros HN Gy [t Ht]. replace x with (y + t * N) by lia.
  apply (unit_cancel _ y); [apply gcd_sq; auto|].
  pose proof (add_pow_lift N y t N ltac:(lia)) as A.
  rewrite (Z.mul_comm y ((y + t * N) ^ N)). rewrite A. exists (t * y ^ N). ring.
Qed.

(** (1+N)^(alpha+ek) (r rho^e)^N = A K^e *)
Lemma pail_complete N k rho al r e K A re : 1 < N -> Z.gcd r N = 1 -> Z.gcd rho N = 1 ->
  two_pow (1 + N) k rho N (N * N) = Ret K -> two_pow (1 + N) al r N (N * N) = Ret A ->
  expm rho e N = Some re ->
  exists Ke gz zN, expm K e (N * N) = Some Ke /\ expm (1 + N) (al + e * k) (N * N) = Some gz /\
    expm ((r * re) mod N) N (N * N) = Some zN /\ (zN * gz) mod (N * N) = (A * Ke) mod (N * N).
Proof.
  intros HN Gr Grho EK EA Ere. assert (M : 0 < N * N) by nia.
  assert (G1 := one_plus_gcd N ltac:(lia)). assert (Gr2 := gcd_sq _ _ Gr). assert (Gh2 := gcd_sq _ _ Grho).
  assert (N0 : 0 < N) by lia. assert (Gre := expm_gcd _ _ _ _ N0 Grho Ere).
  destruct (ped_complete (1 + N) rho (N * N) k N al 0 e K
              (match two_pow (1 + N) al rho 0 (N * N) with Ret v => v | Panic => 0 end) M G1 Gh2 EK) as (Ke & gz & tz & E1 & E2 & E3 & E4).
  { destruct (two_pow_unit (1 + N) al rho 0 (N * N) M G1 Gh2) as (? & ? & _ & _ & -> & _). reflexivity. }
  exists Ke, gz, (((r * re) mod N) ^ N mod (N * N)). split; [exact E1|]. split; [exact E2|].
  split; [apply expm_nonneg; lia|].
  (* z2^N = r^N * rho^(eN) *)
  assert (Z2 : cong (N * N) (((r * re) mod N) ^ N) (r ^ N * tz)).
  { rewrite (pow_lift N ((r * re) mod N) (r * re)) by first [exact HN|apply gcd_mul_1; auto|apply cong_mod; lia].
    rewrite Z.pow_mul_l. apply cong_mul; [reflexivity|].
    destruct (expm_unit rho e (N * N) M Gh2) as [w Ew].
    assert (Cw : cong N re w).
    { set (j := Z.max 0 (- e)). apply (expm_unique rho e N re w j); auto; try lia.
      apply (cong_div (N * N) N); [exists N; ring|]. apply (expm_char rho e (N * N) w); auto; lia. }
    assert (Gw : Z.gcd w N = 1) by (rewrite <- (gcd_cong N re w); auto).
    rewrite (pow_lift N re w HN Gw Cw).
    rewrite Z.add_0_l in E3. rewrite (expm_expm rho e N (N * N) w M Gh2 Ew) in E3. rewrite expm_nonneg in E3 by lia.
    inversion E3. rewrite cong_mod by exact M. reflexivity. }
  apply cong_eq; [exact M|]. rewrite (cong_mod (N * N) (_ ^ N)) by exact M. rewrite Z2.
  destruct (two_pow_unit (1 + N) al rho 0 (N * N) M G1 Gh2) as (a & b & Ea & Eb & E5 & _).
  rewrite E5 in E4. rewrite expm_0 in Eb by exact M.
  unfold two_pow in EA. rewrite Ea in EA. rewrite expm_nonneg in EA by lia. inversion EA; subst A.
  apply cong_eq in E4; [|exact M]. rewrite (cong_mod (N * N) (a * b)) in E4 by exact M.
  assert (Eb1 : cong (N * N) b 1) by (inversion Eb; apply cong_mod; exact M).
  rewrite Eb1 in E4. rewrite Z.mul_1_r in E4.
  rewrite (cong_mod (N * N) (a * _)) by exact M. rewrite (cong_mod (N * N) (r ^ N)) by exact M.
  replace (r ^ N * tz * gz) with (r ^ N * (gz * tz)) by ring. rewrite <- E4.
  exists 0. ring.
Qed.

Lemma get_e_spec B q parts salts e s : get_e B q parts salts = Some (e, s) ->
  e = seed_e B s (hash_protos B s parts) q /\ Z.abs e <= q /\ In s salts.
Proof.
  unfold get_e. intro H.
  assert (A : forall l, get_e_loop B q parts l = Some (e, s) -> e = seed_e B s (hash_protos B s parts) q /\ Z.abs e <= q /\ In s l).
  { induction l as [|x l IH]; cbn [get_e_loop]; [discriminate|]. cbv zeta.
    destruct (Z.leb_spec (Z.abs (seed_e B x (hash_protos B x parts) q)) q) as [L|L]; intro E.
    - inversion E; subst. repeat split; auto. left; reflexivity.
    - destruct (IH E) as (? & ? & ?). repeat split; auto. right; auto. }
  destruct (A _ H) as (? & ? & I). repeat split; auto. rewrite <- (firstn_skipn 100 salts). apply in_or_app. left; exact I.
Qed.
Lemma random_coprime_spec n l r : random_coprime n l = Some r -> 2 < n /\ 1 < r /\ Z.gcd r n = 1 /\ In r l.
Proof.
  unfold random_coprime. destruct (Z.leb_spec n 2); [discriminate|]. intro H0.
  assert (A : forall l, coprime_loop n l = Some r -> 1 < r /\ Z.gcd r n = 1 /\ In r l).
  { induction l0 as [|x l0 IH]; cbn [coprime_loop]; [discriminate|].
    destruct (Z.leb_spec x 1); [intro E; destruct (IH E) as (? & ? & ?); repeat split; auto; right; auto|].
    unfold rel_primeb. destruct (Z.eqb_spec (Z.gcd x n) 1); intro E.
    - inversion E; subst. repeat split; auto. left; auto.
    - destruct (IH E) as (? & ? & ?); repeat split; auto; right; auto. }
  destruct (A _ H0) as (? & ? & I). repeat split; auto; try lia.
  rewrite <- (firstn_skipn 100 l). apply in_or_app. left; exact I.
Qed.

Lemma in_range0_true x c : 0 <= x < c -> in_range0 x c = true.
Proof. intro. unfold in_range0. repeat rewrite andb_true_iff. repeat split; [apply Z.ltb_lt|apply Z.leb_le|apply Z.ltb_lt]; lia. Qed.
Lemma in_range0_inv x c : in_range0 x c = true -> 0 <= x < c.
Proof. unfold in_range0. repeat rewrite andb_true_iff. rewrite !Z.ltb_lt, Z.leb_le. lia. Qed.
Lemma in_range_true x a c : a <= x < c -> in_range x a c = true.
Proof. intro. unfold in_range. repeat rewrite andb_true_iff. repeat split; [apply Z.ltb_lt|apply Z.leb_le|apply Z.ltb_lt]; lia. Qed.
Lemma in_range_inv x a c : in_range x a c = true -> a <= x < c.
Proof. unfold in_range. repeat rewrite andb_true_iff. rewrite !Z.ltb_lt, Z.leb_le. lia. Qed.

(** Pedersen parameters usable for proofs: a modulus above 1 and two units *)
Definition ped_ok (pd : ped) : Prop := 1 < pe_n pd /\ Z.gcd (pe_s pd) (pe_n pd) = 1 /\ Z.gcd (pe_t pd) (pe_n pd) = 1.

Lemma bitlen_nonneg z : 0 <= bitlen z.
Proof. unfold bitlen. destruct (Z.eqb_spec z 0); [lia|]. pose proof (Z.log2_nonneg (Z.abs z)). lia. Qed.
Lemma bound_le z q : Z.abs z <= cf_bound q -> Z.abs z <= 2 ^ (3 * bitlen q + 1).
Proof.
  unfold cf_bound, cf_lae. pose proof (bitlen_nonneg q). rewrite Z.pow_add_r by lia. lia.
Qed.
Lemma pail_eq N z1 gz z2 zN A Ke : 0 <= z2 < N -> expm (1 + N) z1 (N * N) = Some gz -> expm z2 N (N * N) = Some zN ->
  (zN * gz) mod (N * N) = (A * Ke) mod (N * N) -> cong (N * N) ((1 + z1 * N) * z2 ^ N) (A * Ke).
Proof.
  intros HN Eg Ez E. assert (M : 0 < N * N) by nia.
  assert (G : cong (N * N) gz (1 + z1 * N)).
  { destruct (Z.eq_dec N 1) as [->|]; [exists (gz - (1 + z1 * 1)); ring|].
    rewrite (expm_one_plus N z1 gz) by (auto; lia). apply cong_mod; nia. }
  rewrite <- G. rewrite expm_nonneg in Ez by lia. apply Some_inj in Ez.
  apply cong_eq in E; [|exact M]. rewrite <- E, <- Ez. rewrite (cong_mod (N * N) (_ ^ N)) by exact M.
  rewrite (Z.mul_comm gz). reflexivity.
Qed.
Lemma e_range q e : - q <= e < 1 + q -> - q <= e <= q.
Proof. lia. Qed.

Section Thm.
  Variable C : curve.
  Variable B : bytes -> bytes.
  Notation q := (c_n C).

  (** what enc_new / log_new produce, in terms of the draws *)
  Lemma enc_new_inv ctx K N k rho pd d m : enc_new C B ctx K N k rho pd d = Ret (Some m) ->
    exists r Sv A Cc e re,
      random_coprime N (dr_r d) = Some r /\ pe_n pd <> 0 /\
      two_pow (pe_s pd) k (pe_t pd) (dr_mu d) (pe_n pd) = Ret Sv /\
      two_pow (1 + N) (dr_alpha d) r N (N * N) = Ret A /\
      two_pow (pe_s pd) (dr_alpha d) (pe_t pd) (dr_gamma d) (pe_n pd) = Ret Cc /\
      get_e B q (enc_parts C ctx K N pd Sv A Cc) (dr_salts d) = Some (e, em_salt m) /\
      expm rho e N = Some re /\
      m = {| em_salt := em_salt m; em_S := to_be Sv; em_A := to_be A; em_C := to_be Cc;
             em_z1 := ztok (e * k + dr_alpha d); em_z2 := to_be ((r * re) mod N);
             em_z3 := ztok (e * dr_mu d + dr_gamma d) |}.
  Proof.
    unfold enc_new. destruct (random_coprime N (dr_r d)) as [r|]; [|discriminate].
    destruct (Z.eqb_spec (pe_n pd) 0); [discriminate|].
    destruct (two_pow (pe_s pd) k _ _ _) as [Sv|] eqn:E1; cbn [obind]; [|discriminate].
    destruct (two_pow (1 + N) _ _ _ _) as [A|] eqn:E2; cbn [obind]; [|discriminate].
    destruct (two_pow (pe_s pd) (dr_alpha d) _ _ _) as [Cc|] eqn:E3; cbn [obind]; [|discriminate].
    destruct (get_e _ _ _ _) as [[e salt]|] eqn:E4; [|discriminate].
    destruct (expm rho e N) as [re|] eqn:E5; [|discriminate]. intro H. inversion H; subst m. cbn [em_salt].
    exists r, Sv, A, Cc, e, re. repeat split; auto.
  Qed.

  (** the honest response *)
  Definition z_of (s : bytes) : Z := match parse_int 10 s with Some z => z | None => 0 end.

  Theorem enc_complete ctx K N k rho pd d m :
    ped_ok pd -> Z.gcd rho N = 1 -> two_pow (1 + N) k rho N (N * N) = Ret K ->
    enc_new C B ctx K N k rho pd d = Ret (Some m) -> Z.abs (z_of (em_z1 m)) <= cf_bound q ->
    enc_verify C B ctx K N pd m = Ret true.
  Proof.
    intros (Hn & Gs & Gt) Grho EK HE Hz1.
    destruct (enc_new_inv _ _ _ _ _ _ _ _ HE) as (r & Sv & A & Cc & e & re & Er & _ & ES & EA & EC & Ee & Ere & Em).
    destruct (random_coprime_spec _ _ _ Er) as (HN & Hr & Gr & _).
    destruct (get_e_spec _ _ _ _ _ _ Ee) as (Ee1 & Ee2 & _).
    assert (Mp : 0 < pe_n pd) by lia. assert (M : 0 < N * N) by nia.
    destruct (two_pow_unit _ k _ (dr_mu d) _ Mp Gs Gt) as (x1 & y1 & _ & _ & F1 & GS). rewrite F1 in ES. inversion ES as [ES'].
    destruct (two_pow_unit _ (dr_alpha d) _ (dr_gamma d) _ Mp Gs Gt) as (x2 & y2 & _ & _ & F2 & GC). rewrite F2 in EC. inversion EC as [EC'].
    destruct (two_pow_unit _ (dr_alpha d) r N _ M (one_plus_gcd N ltac:(lia)) (gcd_sq _ _ Gr)) as (x3 & y3 & _ & _ & F3 & GA). rewrite F3 in EA. inversion EA as [EA'].
    destruct (ped_complete _ _ _ k (dr_mu d) (dr_alpha d) (dr_gamma d) e _ _ Mp Gs Gt F1 F2) as (Se & sz & tz & P1 & P2 & P3 & P4).
    destruct (pail_complete N k rho (dr_alpha d) r e K _ re ltac:(lia) Gr Grho EK F3 Ere) as (Ke & gz & zN & Q1 & Q2 & Q3 & Q4).
    rewrite ES' in GS, P1. rewrite EC' in GC, P4. rewrite EA' in GA, Q4.
    assert (RS : 0 <= Sv < pe_n pd) by (rewrite <- ES'; apply Z.mod_pos_bound; lia).
    assert (RC : 0 <= Cc < pe_n pd) by (rewrite <- EC'; apply Z.mod_pos_bound; lia).
    assert (RA : 0 <= A < N * N) by (rewrite <- EA'; apply Z.mod_pos_bound; lia).
    assert (RZ : 0 <= (r * re) mod N < N) by (apply Z.mod_pos_bound; lia).
    rewrite Em in Hz1 |- *. cbn [em_z1] in Hz1. unfold z_of in Hz1. rewrite ztok_parse in Hz1.
    unfold enc_verify. cbn [em_salt em_S em_A em_C em_z1 em_z2 em_z3].
    rewrite !of_be_to_be_nonneg by lia.
    rewrite (in_range0_true Sv), (in_range0_true Cc), (in_range0_true ((r * re) mod N)), (in_range0_true A) by lia.
    unfold rel_primeb. rewrite GS, GC, (gcd_sq_inv A N GA). cbn [negb Z.eqb Pos.eqb]. rewrite <- Ee1.
    rewrite in_range_true by lia. cbn [negb]. rewrite !ztok_parse. cbn [deref obind].
    destruct (Z.ltb_spec (cf_bound q) (Z.abs (e * k + dr_alpha d))); [lia|].
    rewrite Q1. cbn [deref obind]. rewrite (Z.add_comm (e * k)), Q2. cbn [deref obind]. rewrite Q3. cbn [deref obind].
    rewrite Q4, Z.eqb_refl. cbn [negb]. rewrite P1, P2. cbn [deref obind]. rewrite (Z.add_comm (e * dr_mu d)), P3. cbn [deref obind].
    rewrite P4, Z.eqb_refl. reflexivity.
  Qed.

  (** what acceptance means; the conclusion speaks only of integers and congruences *)
  Record enc_accepts (ctx : bytes) (K N : Z) (pd : ped) (m : encmsg) (e z1 z3 : Z) : Prop := {
    ea_z1 : parse_int 10 (em_z1 m) = Some z1;
    ea_z3 : parse_int 10 (em_z3 m) = Some z3;
    ea_range : Z.abs z1 <= 2 ^ (3 * bitlen q + 1);
    ea_e : e = seed_e B (em_salt m) (hash_protos B (em_salt m)
             (enc_parts C ctx K N pd (of_be (em_S m)) (of_be (em_A m)) (of_be (em_C m)))) q;
    ea_e_range : - q <= e <= q;
    ea_units : Z.gcd (of_be (em_S m)) (pe_n pd) = 1 /\ Z.gcd (of_be (em_C m)) (pe_n pd) = 1 /\ Z.gcd (of_be (em_A m)) N = 1;
    ea_bounds : 0 <= of_be (em_S m) < pe_n pd /\ 0 <= of_be (em_C m) < pe_n pd /\ 0 <= of_be (em_A m) < N * N /\ 0 <= of_be (em_z2 m) < N;
    (* (1+N)^z1 z2^N = A K^e mod N^2, where K^e is a power of K in the sense of [expm_char] *)
    ea_paillier : exists Ke, expm K e (N * N) = Some Ke /\
      cong (N * N) ((1 + z1 * N) * of_be (em_z2 m) ^ N) (of_be (em_A m) * Ke);
    (* s^z1 t^z3 = C S^e mod N^ *)
    ea_pedersen : exists sz tz Se, expm (pe_s pd) z1 (pe_n pd) = Some sz /\ expm (pe_t pd) z3 (pe_n pd) = Some tz /\
      expm (of_be (em_S m)) e (pe_n pd) = Some Se /\ cong (pe_n pd) (sz * tz) (of_be (em_C m) * Se) }.

  Theorem enc_sound ctx K N pd m : enc_verify C B ctx K N pd m = Ret true ->
    exists e z1 z3, enc_accepts ctx K N pd m e z1 z3.
  Proof.
    unfold enc_verify. intro H.
    repeat match type of H with context [if negb ?c then _ else _] =>
      lazymatch c with
      | _ =? _ => fail
      | _ => let E := fresh "E" in destruct c eqn:E; cbn [negb] in H; [|discriminate H]
      end end.
    destruct (parse_int 10 (em_z1 m)) as [z1|] eqn:Z1; cbn [deref obind] in H; [|discriminate].
    destruct (Z.ltb_spec (cf_bound q) (Z.abs z1)) as [|Hb]; [discriminate|].
    destruct (expm K _ (N * N)) as [Ke|] eqn:EK; cbn [deref obind] in H; [|discriminate].
    destruct (expm (1 + N) z1 (N * N)) as [gz|] eqn:Eg; cbn [deref obind] in H; [|discriminate].
    destruct (expm (of_be (em_z2 m)) N (N * N)) as [zN|] eqn:Ez; cbn [deref obind] in H; [|discriminate].
    destruct (Z.eqb_spec ((zN * gz) mod (N * N)) ((of_be (em_A m) * Ke) mod (N * N))) as [E8|]; cbn [negb] in H; [|discriminate].
    destruct (expm (of_be (em_S m)) _ (pe_n pd)) as [Se|] eqn:ES; cbn [deref obind] in H; [|discriminate].
    destruct (expm (pe_s pd) z1 (pe_n pd)) as [sz|] eqn:Es; cbn [deref obind] in H; [|discriminate].
    destruct (parse_int 10 (em_z3 m)) as [z3|] eqn:Z3; cbn [deref obind] in H; [|discriminate].
    destruct (expm (pe_t pd) z3 (pe_n pd)) as [tz|] eqn:Et; cbn [deref obind] in H; [|discriminate].
    inversion H as [E9]. apply Z.eqb_eq in E9.
    apply in_range0_inv in E, E1, E3, E4. apply in_range_inv in E6. unfold rel_primeb in *. apply Z.eqb_eq in E0, E2, E5.
    match type of EK with expm _ ?e _ = _ => exists e, z1, z3; set (e0 := e) in * end.
    constructor.
    - exact Z1.
    - exact Z3.
    - exact (bound_le _ _ Hb).
    - reflexivity.
    - exact (e_range _ _ E6).
    - auto.
    - auto.
    - exists Ke. split; [exact EK|]. exact (pail_eq _ _ _ _ _ _ _ E3 Eg Ez E8).
    - exists sz, tz, Se. repeat split; auto. apply cong_eq; [exact (Z.le_lt_trans _ _ _ (proj1 E) (proj2 E))|]. symmetry. exact E9.
  Qed.

  (** *** log proof *)
  Lemma log_new_inv ctx k rho K N pd X d m : log_new C B ctx k rho K N pd X d = Ret (Some m) ->
    exists r Sv A D Y e re,
      random_coprime N (dr_r d) = Some r /\ pe_n pd <> 0 /\
      two_pow (pe_s pd) k (pe_t pd) (dr_mu d) (pe_n pd) = Ret Sv /\
      two_pow (1 + N) (dr_alpha d) r N (N * N) = Ret A /\
      pt_smul C (c_g C) (dr_alpha d) = Some Y /\
      two_pow (pe_s pd) (dr_alpha d) (pe_t pd) (dr_gamma d) (pe_n pd) = Ret D /\
      get_e B q (log_parts C ctx K N pd Sv A D X Y) (dr_salts d) = Some (e, lm_salt m) /\
      expm rho e N = Some re /\
      m = {| lm_salt := lm_salt m; lm_S := to_be Sv; lm_A := to_be A; lm_Yx := to_be (px Y); lm_Yy := to_be (py Y); lm_D := to_be D;
             lm_z1 := ztok (dr_alpha d + e * k); lm_z2 := to_be ((r * re) mod N); lm_z3 := ztok (dr_gamma d + e * dr_mu d) |}.
  Proof.
    unfold log_new. destruct (random_coprime N (dr_r d)) as [r|]; [|discriminate].
    destruct (Z.eqb_spec (pe_n pd) 0); [discriminate|].
    destruct (two_pow (pe_s pd) k _ _ _) as [Sv|] eqn:E1; cbn [obind]; [|discriminate].
    destruct (two_pow (1 + N) _ _ _ _) as [A|] eqn:E2; cbn [obind]; [|discriminate].
    destruct (pt_smul C (c_g C) (dr_alpha d)) as [Y|] eqn:EY; cbn [deref obind]; [|discriminate].
    destruct (two_pow (pe_s pd) (dr_alpha d) _ _ _) as [D|] eqn:E3; cbn [obind]; [|discriminate].
    destruct (get_e _ _ _ _) as [[e salt]|] eqn:E4; [|discriminate].
    destruct (expm rho e N) as [re|] eqn:E5; [|discriminate]. intro H. inversion H; subst m. cbn [lm_salt].
    exists r, Sv, A, D, Y, e, re. repeat split; auto.
  Qed.

  Hypothesis L : curve_laws C.

  Lemma smul_g_gmul k : pt_smul C (c_g C) k = Some (gmul C k).
  Proof. rewrite (pt_smul_eq C L) by (apply on_g; auto). reflexivity. Qed.

  Theorem log_complete ctx K N k rho pd d m :
    ped_ok pd -> Z.gcd rho N = 1 -> two_pow (1 + N) k rho N (N * N) = Ret K ->
    log_new C B ctx k rho K N pd (gmul C k) d = Ret (Some m) -> Z.abs (z_of (lm_z1 m)) <= cf_bound q ->
    log_verify C B ctx K N pd (gmul C k) m = Ret true.
  Proof.
    intros (Hn & Gs & Gt) Grho EK HE Hz1.
    destruct (log_new_inv _ _ _ _ _ _ _ _ _ HE) as (r & Sv & A & D & Y & e & re & Er & _ & ES & EA & EY & ED & Ee & Ere & Em).
    destruct (random_coprime_spec _ _ _ Er) as (HN & Hr & Gr & _).
    destruct (get_e_spec _ _ _ _ _ _ Ee) as (Ee1 & Ee2 & _).
    assert (Mp : 0 < pe_n pd) by lia. assert (M : 0 < N * N) by nia.
    destruct (two_pow_unit _ k _ (dr_mu d) _ Mp Gs Gt) as (x1 & y1 & _ & _ & F1 & GS). rewrite F1 in ES. inversion ES as [ES'].
    destruct (two_pow_unit _ (dr_alpha d) _ (dr_gamma d) _ Mp Gs Gt) as (x2 & y2 & _ & _ & F2 & GC). rewrite F2 in ED. inversion ED as [EC'].
    destruct (two_pow_unit _ (dr_alpha d) r N _ M (one_plus_gcd N ltac:(lia)) (gcd_sq _ _ Gr)) as (x3 & y3 & _ & _ & F3 & GA). rewrite F3 in EA. inversion EA as [EA'].
    destruct (ped_complete _ _ _ k (dr_mu d) (dr_alpha d) (dr_gamma d) e _ _ Mp Gs Gt F1 F2) as (Se & sz & tz & P1 & P2 & P3 & P4).
    destruct (pail_complete N k rho (dr_alpha d) r e K _ re ltac:(lia) Gr Grho EK F3 Ere) as (Ke & gz & zN & Q1 & Q2 & Q3 & Q4).
    rewrite ES' in GS, P1. rewrite EC' in GC, P4. rewrite EA' in GA, Q4.
    assert (RS : 0 <= Sv < pe_n pd) by (rewrite <- ES'; apply Z.mod_pos_bound; lia).
    assert (RC : 0 <= D < pe_n pd) by (rewrite <- EC'; apply Z.mod_pos_bound; lia).
    assert (RA : 0 <= A < N * N) by (rewrite <- EA'; apply Z.mod_pos_bound; lia).
    assert (RZ : 0 <= (r * re) mod N < N) by (apply Z.mod_pos_bound; lia).
    assert (GZ : Z.gcd ((r * re) mod N) N = 1).
    { rewrite (gcd_cong N _ (r * re)) by (apply cong_mod; lia). apply gcd_mul_1; auto. eapply expm_gcd; [|exact Grho|exact Ere]. lia. }
    rewrite smul_g_gmul in EY. injection EY as EY'.
    assert (RY := cl_coord C L Y ltac:(rewrite <- EY'; apply gmul_canon; auto)).
    assert (OY : new_point C (px Y) (py Y) = Some Y).
    { unfold new_point. pose proof (gmul_on C L (dr_alpha d)) as O. rewrite EY' in O. unfold Curve.on in O. rewrite O. destruct Y; reflexivity. }
    rewrite Em in Hz1 |- *. cbn [lm_z1] in Hz1. unfold z_of in Hz1. rewrite ztok_parse in Hz1.
    unfold log_verify. cbn [lm_salt lm_S lm_A lm_D lm_z1 lm_z2 lm_z3 lm_Yx lm_Yy].
    rewrite !of_be_to_be_nonneg by lia.
    rewrite (in_range0_true Sv), (in_range0_true D), (in_range0_true ((r * re) mod N)), (in_range0_true A) by lia.
    unfold rel_primeb. rewrite GS, GC, (gcd_sq_inv A N GA), GZ. cbn [negb Z.eqb Pos.eqb]. rewrite OY. rewrite <- Ee1.
    rewrite in_range_true by lia. cbn [negb]. rewrite !ztok_parse. cbn [deref obind].
    destruct (Z.ltb_spec (cf_bound q) (Z.abs (dr_alpha d + e * k))); [lia|].
    rewrite (pt_smul_gmul C L). cbn [deref obind]. rewrite <- EY'. rewrite (pt_add_gmul C L). rewrite smul_g_gmul. cbn [deref obind].
    rewrite (Z.add_comm (e * k)), pt_eqb_refl. cbn [negb].
    rewrite Q1. cbn [deref obind]. rewrite Q3. cbn [deref obind]. rewrite Q2. cbn [deref obind].
    rewrite Q4, Z.eqb_refl. cbn [negb]. rewrite P2. cbn [deref obind]. rewrite P3. cbn [deref obind]. rewrite P1. cbn [deref obind].
    rewrite P4, Z.eqb_refl. reflexivity.
  Qed.

  Record log_accepts (ctx : bytes) (K N : Z) (pd : ped) (X : point) (m : logmsg) (e z1 z3 : Z) (Y : point) : Prop := {
    la_z1 : parse_int 10 (lm_z1 m) = Some z1;
    la_z3 : parse_int 10 (lm_z3 m) = Some z3;
    la_range : Z.abs z1 <= 2 ^ (3 * bitlen q + 1);
    la_e : e = seed_e B (lm_salt m) (hash_protos B (lm_salt m)
             (log_parts C ctx K N pd (of_be (lm_S m)) (of_be (lm_A m)) (of_be (lm_D m)) X Y)) q;
    la_e_range : - q <= e <= q;
    la_Y : Y = (of_be (lm_Yx m), of_be (lm_Yy m)) /\ on C Y = true;
    la_units : Z.gcd (of_be (lm_S m)) (pe_n pd) = 1 /\ Z.gcd (of_be (lm_D m)) (pe_n pd) = 1 /\
               Z.gcd (of_be (lm_A m)) N = 1 /\ Z.gcd (of_be (lm_z2 m)) N = 1;
    la_bounds : 0 <= of_be (lm_S m) < pe_n pd /\ 0 <= of_be (lm_D m) < pe_n pd /\ 0 <= of_be (lm_A m) < N * N /\ 0 <= of_be (lm_z2 m) < N;
    (* z1*G = e*X + Y *)
    la_curve : on C X = true -> c_add C (c_smul C X (e mod q)) Y = gmul C z1;
    la_paillier : exists Ke, expm K e (N * N) = Some Ke /\
      cong (N * N) ((1 + z1 * N) * of_be (lm_z2 m) ^ N) (of_be (lm_A m) * Ke);
    la_pedersen : exists sz tz Se, expm (pe_s pd) z1 (pe_n pd) = Some sz /\ expm (pe_t pd) z3 (pe_n pd) = Some tz /\
      expm (of_be (lm_S m)) e (pe_n pd) = Some Se /\ cong (pe_n pd) (sz * tz) (of_be (lm_D m) * Se) }.

  Theorem log_sound ctx K N pd X m : log_verify C B ctx K N pd X m = Ret true ->
    exists e z1 z3 Y, log_accepts ctx K N pd X m e z1 z3 Y.
  Proof.
    unfold log_verify. intro H.
    do 8 match type of H with context [if negb ?c then _ else _] =>
      let E := fresh "E" in destruct c eqn:E; cbn [negb] in H; [|discriminate H] end.
    destruct (new_point C _ _) as [Y|] eqn:EY; [|discriminate].
    match type of H with context [if negb ?c then _ else _] =>
      let E := fresh "E" in destruct c eqn:E; cbn [negb] in H; [|discriminate H] end.
    destruct (parse_int 10 (lm_z1 m)) as [z1|] eqn:Z1; cbn [deref obind] in H; [|discriminate].
    destruct (Z.ltb_spec (cf_bound q) (Z.abs z1)) as [|Hb]; [discriminate|].
    destruct (pt_smul C X _) as [eX|] eqn:EX; cbn [deref obind] in H; [|discriminate].
    destruct (pt_add C eX Y) as [YX|] eqn:EA; [|discriminate].
    rewrite smul_g_gmul in H. cbn [deref obind] in H.
    destruct (pt_eqb (gmul C z1) YX) eqn:EG; cbn [negb] in H; [|discriminate]. apply pt_eqb_eq in EG.
    destruct (expm K _ (N * N)) as [Ke|] eqn:EK; cbn [deref obind] in H; [|discriminate].
    destruct (expm (of_be (lm_z2 m)) N (N * N)) as [zN|] eqn:Ez; cbn [deref obind] in H; [|discriminate].
    destruct (expm (1 + N) z1 (N * N)) as [gz|] eqn:Eg; cbn [deref obind] in H; [|discriminate].
    destruct (Z.eqb_spec ((zN * gz) mod (N * N)) ((of_be (lm_A m) * Ke) mod (N * N))) as [E10|]; cbn [negb] in H; [|discriminate].
    destruct (expm (pe_s pd) z1 (pe_n pd)) as [sz|] eqn:Es; cbn [deref obind] in H; [|discriminate].
    destruct (parse_int 10 (lm_z3 m)) as [z3|] eqn:Z3; cbn [deref obind] in H; [|discriminate].
    destruct (expm (pe_t pd) z3 (pe_n pd)) as [tz|] eqn:Et; cbn [deref obind] in H; [|discriminate].
    destruct (expm (of_be (lm_S m)) _ (pe_n pd)) as [Se|] eqn:ES; cbn [deref obind] in H; [|discriminate].
    inversion H as [E9]. apply Z.eqb_eq in E9.
    apply in_range0_inv in E, E1, E3, E5. apply in_range_inv in E7. unfold rel_primeb in *. apply Z.eqb_eq in E0, E2, E4, E6.
    unfold new_point in EY. destruct (c_on C (of_be (lm_Yx m)) (of_be (lm_Yy m))) eqn:OY; [|discriminate]. inversion EY; subst Y. clear EY.
    match type of EK with expm _ ?e _ = _ => exists e, z1, z3, (of_be (lm_Yx m), of_be (lm_Yy m)); set (e0 := e) in * end.
    constructor.
    - exact Z1.
    - exact Z3.
    - exact (bound_le _ _ Hb).
    - reflexivity.
    - exact (e_range _ _ E7).
    - split; [reflexivity|exact OY].
    - auto.
    - auto.
    - intro OX. rewrite (pt_smul_eq C L) in EX by exact OX. injection EX as EX'. rewrite EX'.
      rewrite EG. unfold pt_add, new_point in EA.
      revert EA. destruct (c_add C eX _) as [u v]. cbn [px py fst snd]. destruct (c_on C u v); [|discriminate].
      intro EA. injection EA as <-. reflexivity.
    - exists Ke. split; [exact EK|]. exact (pail_eq _ _ _ _ _ _ _ E5 Eg Ez E10).
    - exists sz, tz, Se. repeat split; auto. apply cong_eq; [exact (Z.le_lt_trans _ _ _ (proj1 E) (proj2 E))|]. exact E9.
  Qed.
End Thm.
