(** PropModHonest.v -- property C32, completeness: the proof an honest prover makes for a product of two Blum primes. *)
From Verif Require Import Base BigInt HashFrame NumTh Euler RangeProofs IntMod Dln Random PropRandom Jacobi ModProof PropMod.
From Coq Require Import Znumtheory.

(** ** bits *)
Lemma set_bits_spec acc i l k : 0 <= i -> 0 <= k ->
  Z.testbit (set_bits acc i l) k = if (i <=? k) && (k <? i + Z.of_nat (length l)) then 0 <? nth (Z.to_nat (k - i)) l 0 else Z.testbit acc k.
Proof.
  intros Hi Hk. revert acc i Hi. induction l as [|b l IH]; intros acc i Hi; cbn [set_bits length].
  - destruct (Z.leb_spec i k); destruct (Z.ltb_spec k (i + Z.of_nat 0)); cbn [andb]; try reflexivity; lia.
  - rewrite IH by lia. rewrite Nat2Z.inj_succ.
    destruct (Z.eq_dec k i) as [->|N].
    + destruct (Z.leb_spec (i + 1) i); [lia|]. cbn [andb]. destruct (Z.leb_spec i i); [|lia]. destruct (Z.ltb_spec i (i + Z.succ (Z.of_nat (length l)))); [|lia].
      cbn [andb]. rewrite Z.sub_diag. cbn [Z.to_nat nth]. destruct (0 <? b); [apply Z.setbit_eq; exact Hi|apply Z.clearbit_eq].
    + assert (EN : (i <? k) = true -> nth (Z.to_nat (k - i)) (b :: l) 0 = nth (Z.to_nat (k - (i + 1))) l 0).
      { intro L. replace (Z.to_nat (k - i)) with (S (Z.to_nat (k - (i + 1)))) by lia. reflexivity. }
      assert (EB : Z.testbit (if 0 <? b then Z.setbit acc i else Z.clearbit acc i) k = Z.testbit acc k).
      { destruct (0 <? b); [apply Z.setbit_neq; lia|apply Z.clearbit_neq; lia]. }
      rewrite EB. destruct (Z.leb_spec (i + 1) k); destruct (Z.leb_spec i k); try lia; cbn [andb]; [|reflexivity].
      rewrite EN by lia. replace (i + Z.succ (Z.of_nat (length l))) with (i + 1 + Z.of_nat (length l)) by lia. reflexivity.
Qed.
Lemma set_bits_80 l : length l = 80%nat -> bitlen (set_bits (2 ^ 80) 0 l) = 81 /\
  forall i, (i < 80)%nat -> Z.testbit (set_bits (2 ^ 80) 0 l) (Z.of_nat i) = (0 <? nth i l 0).
Proof.
  intro L. set (A := set_bits (2 ^ 80) 0 l).
  assert (T : forall k, 0 <= k -> Z.testbit A k = if (k <? 80) then 0 <? nth (Z.to_nat k) l 0 else (80 =? k)).
  { intros k Hk. unfold A. rewrite set_bits_spec by lia. rewrite L. destruct (Z.leb_spec 0 k); [|lia]. cbn [andb]. change (0 + Z.of_nat 80) with 80.
    rewrite Z.sub_0_r. destruct (k <? 80); [reflexivity|]. apply Z.pow2_bits_eqb. lia. }
  split.
  - assert (T80 : Z.testbit A 80 = true) by (rewrite T by lia; reflexivity).
    assert (Hi : forall m, 80 < m -> Z.testbit A m = false) by (intros m Hm; rewrite T by lia; destruct (Z.ltb_spec m 80); [lia|]; destruct (Z.eqb_spec 80 m); [lia|reflexivity]).
    assert (NN : 0 <= A) by (apply Z.bits_iff_nonneg_ex; exists 80; exact Hi).
    assert (Lg : Z.log2 A = 80) by (apply Z.log2_bits_unique; assumption).
    unfold bitlen. rewrite Z.abs_eq by exact NN. destruct (Z.eqb_spec A 0) as [E|E]; [rewrite E in Lg; discriminate|lia].
  - intros i Hi. rewrite T by lia. rewrite Nat2Z.id. destruct (Z.ltb_spec (Z.of_nat i) 80); [reflexivity|lia].
Qed.

Lemma phi_ge p q : 3 <= p -> 3 <= q -> 4 <= (p - 1) * (q - 1).
Proof. nia. Qed.
Lemma pq_ge p q : 3 <= p -> 3 <= q -> 9 <= p * q.
Proof. nia. Qed.
Lemma nonneg_factor a k : 4 <= a -> 0 <= a * k + 1 -> 0 <= k.
Proof. nia. Qed.
(** ** exponents, modulo one of the two primes *)
Section Expo.
  Variables p q : Z.
  Hypothesis P : prime p.
  Hypothesis Q : prime q.
  Hypothesis P4 : p mod 4 = 3.
  Hypothesis Q4 : q mod 4 = 3.
  Let phi := (p - 1) * (q - 1).

  Lemma pow_phi y k : Z.gcd y p = 1 -> 0 <= k -> cong p (y ^ (phi * k)) 1.
  Proof.
    intros G Hk. pose proof (blum_pos p P P4) as Hp. pose proof (blum_pos q Q Q4) as Hq. unfold phi.
    assert (X : 0 <= (q - 1) * k) by (apply Z.mul_nonneg_nonneg; [clear - Hq; lia|exact Hk]).
    rewrite <- Z.mul_assoc, Z.pow_mul_r; [|clear - Hp; lia|exact X].
    rewrite (cong_pow p (y ^ (p - 1)) 1 _ (fermat p y P G)). rewrite Z.pow_1_l by exact X. reflexivity.
  Qed.
  Lemma fourth_root y : Z.gcd y p = 1 -> legendre y p = 1 -> cong p ((y ^ ((((phi + 4) / 8) * ((phi + 4) / 8)) mod phi)) ^ 4) y.
  Proof.
    intros G L. pose proof (blum_pos p P P4) as Hp. pose proof (blum_pos q Q Q4) as Hq. apply (euler_1 p P P4 y G) in L.
    assert (Hu : exists u, 0 <= u /\ p = 4 * u + 3) by (exists (p / 4); lia). destruct Hu as [u [U0 Eu]].
    assert (Hv : exists v, 0 <= v /\ q = 4 * v + 3) by (exists (q / 4); lia). destruct Hv as [v [V0 Ev]].
    assert (Ep : (p - 1) / 2 = 2 * u + 1) by lia. rewrite Ep in L.
    set (w := 2 * (u * v) + u + v). assert (W0 : 0 <= w) by (pose proof (Z.mul_nonneg_nonneg _ _ U0 V0); unfold w; lia).
    assert (Hphi : phi = 4 * (2 * w + 1)) by (unfold phi, w; rewrite Eu, Ev; ring).
    set (E := (phi + 4) / 8). assert (HE : E = w + 1). { unfold E. rewrite Hphi. replace (4 * (2 * w + 1) + 4) with ((w + 1) * 8) by ring. apply Z.div_mul. lia. }
    assert (Pphi : 0 < phi) by (rewrite Hphi; clear - W0; lia).
    set (r := (E * E) mod phi). assert (Hr : 0 <= r < phi) by (apply Z.mod_pos_bound; exact Pphi).
    assert (DM : E * E = phi * (E * E / phi) + r) by (apply Z.div_mod; clear - Pphi; lia).
    assert (EE : 0 <= E * E) by apply Z.square_nonneg.
    assert (K0 : 0 <= E * E / phi) by (apply Z.div_pos; assumption).
    assert (S1 : cong p (y ^ (E * E)) (y ^ r)).
    { rewrite DM at 1. rewrite Z.pow_add_r; [|apply Z.mul_nonneg_nonneg; [clear - Pphi; lia|exact K0]|exact (proj1 Hr)]. rewrite (pow_phi y _ G K0). rewrite Z.mul_1_l. reflexivity. }
    rewrite <- (cong_pow p _ _ 4 S1). rewrite <- Z.pow_mul_r; [|exact EE|lia].
    assert (X : 0 <= (2 * v + 1) * (2 * w + 3)) by (apply Z.mul_nonneg_nonneg; clear - V0 W0; lia).
    replace (E * E * 4) with ((2 * u + 1) * ((2 * v + 1) * (2 * w + 3)) + 1).
    - rewrite Z.pow_add_r, Z.pow_mul_r, Z.pow_1_r; [|clear - U0; lia|exact X|apply Z.mul_nonneg_nonneg; [clear - U0; lia|exact X]|clear; lia].
      rewrite (cong_pow p _ 1 _ L). rewrite Z.pow_1_l by exact X. rewrite Z.mul_1_l. reflexivity.
    - rewrite HE. unfold w. ring.
  Qed.
  Lemma nth_root Y iv : Z.gcd Y p = 1 -> 0 <= iv -> cong phi (p * q * iv) 1 -> cong p ((Y ^ iv) ^ (p * q)) Y.
  Proof.
    intros G Hiv [k Hk]. pose proof (blum_pos p P P4) as Hp. pose proof (blum_pos q Q Q4) as Hq.
    assert (Pphi : 4 <= phi) by (apply phi_ge; assumption). pose proof (pq_ge p q Hp Hq) as PQ.
    assert (Hk0 : 0 <= k). { apply (nonneg_factor phi k Pphi). replace (phi * k + 1) with (p * q * iv) by (clear - Hk; lia). apply Z.mul_nonneg_nonneg; [clear - PQ; lia|exact Hiv]. }
    rewrite <- Z.pow_mul_r; [|exact Hiv|clear - PQ; lia]. replace (iv * (p * q)) with (phi * k + 1) by (clear - Hk; lia).
    rewrite Z.pow_add_r, Z.pow_1_r; [|apply Z.mul_nonneg_nonneg; [clear - Pphi; lia|exact Hk0]|clear; lia]. rewrite (pow_phi Y k G Hk0). rewrite Z.mul_1_l. reflexivity.
  Qed.
End Expo.

Lemma gcd_prod a p q : Z.gcd a (p * q) = 1 <-> Z.gcd a p = 1 /\ Z.gcd a q = 1.
Proof.
  split.
  - intro G. rewrite !Zgcd_1_rel_prime in *. split.
    + apply rel_prime_sym. apply rel_prime_div with (p * q); [now apply rel_prime_sym|apply Z.divide_factor_l].
    + apply rel_prime_sym. apply rel_prime_div with (p * q); [now apply rel_prime_sym|apply Z.divide_factor_r].
  - intros [A B]. rewrite Z.gcd_comm. apply gcd_mul_1; rewrite Z.gcd_comm; assumption.
Qed.

Lemma map_snd_seq {A B} (f : A -> B) l k : map (fun ja : nat * A => f (snd ja)) (combine (seq k (length l)) l) = map f l.
Proof. revert k. induction l as [|x l IH]; intro k; [reflexivity|]. cbn [length seq combine map snd]. f_equal. apply IH. Qed.

Local Opaque mod_ys.
Section Honest.
  Variables p q W : Z.
  Hypothesis P : prime p.
  Hypothesis Q : prime q.
  Hypothesis P4 : p mod 4 = 3.
  Hypothesis Q4 : q mod 4 = 3.
  Notation N := (p * q).
  Notation phi := ((p - 1) * (q - 1)).
  Hypothesis W0 : 0 <= W < N.
  Hypothesis WJ : jac W N = Ret (-1).

  Lemma N_pos : 9 <= N. Proof using P Q P4 Q4. apply pq_ge; [apply (blum_pos p P P4)|apply (blum_pos q Q Q4)]. Qed.
  Lemma W_symbols : legendre W p * legendre W q = -1.
  Proof using All.
    revert WJ. unfold jac. destruct (Z.even N); [discriminate|]. pose proof N_pos. destruct (Z.ltb_spec N 0); [lia|]. cbn [andb].
    intro E. apply (f_equal (fun o => match o with Ret z => z | Panic => 0 end)) in E. cbv beta iota in E.
    unfold jacobi_pos in E. rewrite Z.abs_eq in E by lia. destruct (factors_two p q P Q) as [F|F]; rewrite F in E; cbn [fold_right] in E; lia.
  Qed.
  Lemma p_neq_q : p <> q.
  Proof using All. intro E. pose proof W_symbols as S. rewrite <- E in S. destruct (legendre_val W p) as [V|[V|V]]; rewrite V in S; lia. Qed.
  Lemma pq_rel_prime : rel_prime p q.
  Proof using All.
    apply prime_rel_prime; [exact P|]. intro D. apply prime_div_prime in D; [|assumption..]. exact (p_neq_q D).
  Qed.
  Lemma W_unit : Z.gcd W p = 1 /\ Z.gcd W q = 1.
  Proof using All.
    pose proof W_symbols as S. pose proof (blum_pos p P P4). pose proof (blum_pos q Q Q4). split; (apply unit_iff; [assumption..|]); intro D;
      apply legendre_0 in D; try lia; rewrite D in S; lia.
  Qed.
  Definition sgn01 (a : Z) : Z := if 0 <? a then -1 else 1.

  Lemma adj_legendre r Y a b : (r = p \/ r = q) -> Z.gcd Y r = 1 -> legendre (mod_adj W N Y a b) r = (if 0 <? b then legendre W r else 1) * (sgn01 a * legendre Y r).
  Proof using All.
    intros Hr G. pose proof N_pos. assert (Pr : prime r) by (destruct Hr; subst; assumption). assert (R4 : r mod 4 = 3) by (destruct Hr; subst; assumption).
    assert (D : (r | N)) by (destruct Hr; subst; [apply Z.divide_factor_l|apply Z.divide_factor_r]).
    assert (GW : Z.gcd W r = 1) by (destruct Hr; subst; apply W_unit).
    rewrite (legendre_cong r Pr R4 _ _ (cong_div _ _ _ _ D (mod_adj_spec W N Y a b ltac:(lia)))).
    assert (G1 : Z.gcd (-1) r = 1) by apply (Z.gcd_1_l r).
    assert (E : legendre ((if 0 <? a then -1 else 1) * Y) r = sgn01 a * legendre Y r).
    { unfold sgn01. destruct (0 <? a); [|rewrite !Z.mul_1_l; reflexivity]. rewrite (legendre_mul r Pr R4 _ _ G1 G), (legendre_neg1 r Pr R4). reflexivity. }
    assert (G2 : Z.gcd ((if 0 <? a then -1 else 1) * Y) r = 1) by (apply gcd_mul_1; [destruct (0 <? a); [exact G1|apply Z.gcd_1_l]|exact G]).
    destruct (0 <? b); [rewrite (legendre_mul r Pr R4 _ _ GW G2), E; reflexivity|]. rewrite !Z.mul_1_l. exact E.
  Qed.

  Definition try_ok (Y j : Z) : bool :=
    (legendre (mod_adj W N Y (j mod 2) (j / 2)) p =? 1) && (legendre (mod_adj W N Y (j mod 2) (j / 2)) q =? 1).
  Lemma mod_try_find Y js : 0 <= Y < N ->
    mod_try W N p q Y js = Ret (match find (try_ok Y) js with Some j => Some (j mod 2, j / 2, mod_adj W N Y (j mod 2) (j / 2)) | None => None end).
  Proof using P Q P4 Q4.
    intro Hy. induction js as [|j js IH]; [reflexivity|]. cbn [mod_try find].
    pose proof (mod_adj_range W N Y (j mod 2) (j / 2) Hy) as R. rewrite (jac_prime p P P4) by lia. cbn [obind]. unfold try_ok at 1.
    destruct (legendre _ p =? 1); cbn [andb]; [|exact IH]. rewrite (jac_prime q Q Q4) by lia. cbn [obind]. destruct (legendre _ q =? 1); [reflexivity|exact IH].
  Qed.

  Lemma find_unit Y : Z.gcd Y N = 1 -> exists j, In j [0; 1; 2; 3] /\ find (try_ok Y) [0; 1; 2; 3] = Some j /\ try_ok Y j = true.
  Proof using All.
    intro G. apply gcd_prod in G. destruct G as [Gp Gq].
    destruct (find (try_ok Y) [0; 1; 2; 3]) as [j|] eqn:F.
    - exists j. apply find_some in F. tauto.
    - exfalso. pose proof (fun x I => find_none _ _ F x I) as Nn. 
      pose proof W_symbols as WS. destruct W_unit as [Wp Wq].
      assert (T : forall j, try_ok Y j = ((((if 0 <? j / 2 then legendre W p else 1) * (sgn01 (j mod 2) * legendre Y p)) =? 1) &&
                                          (((if 0 <? j / 2 then legendre W q else 1) * (sgn01 (j mod 2) * legendre Y q)) =? 1))).
      { intro j. unfold try_ok. rewrite (adj_legendre p) by auto. rewrite (adj_legendre q) by auto. reflexivity. }
      assert (N0 := Nn 0 ltac:(cbn; tauto)). assert (N1 := Nn 1 ltac:(cbn; tauto)). assert (N2 := Nn 2 ltac:(cbn; tauto)). assert (N3 := Nn 3 ltac:(cbn; tauto)).
      rewrite T in N0, N1, N2, N3. unfold sgn01 in *. change (0 / 2) with 0 in *. change (1 / 2) with 0 in *. change (2 / 2) with 1 in *. change (3 / 2) with 1 in *.
      change (0 mod 2) with 0 in *. change (1 mod 2) with 1 in *. change (2 mod 2) with 0 in *. change (3 mod 2) with 1 in *. change (0 <? 0) with false in *. change (0 <? 1) with true in *. cbv iota in N0, N1, N2, N3.
      destruct (legendre_pm p P P4 Y Gp) as [Lp|Lp]; destruct (legendre_pm q Q Q4 Y Gq) as [Lq|Lq];
        destruct (legendre_pm p P P4 W Wp) as [Mp|Mp]; rewrite Mp in WS; assert (Mq : legendre W q = (if legendre W p =? 1 then -1 else 1)) by (rewrite Mp; cbn; lia);
        rewrite Mp in Mq; cbn in Mq; rewrite ?Lp, ?Lq, ?Mp, ?Mq in N0, N1, N2, N3; rewrite Mp, Mq in N2; rewrite Mp, Mq in N3; first [discriminate N0|discriminate N1|discriminate N2|discriminate N3].
  Qed.
  Lemma find_nonunit Y : Z.gcd Y N <> 1 -> find (try_ok Y) [0; 1; 2; 3] = None.
  Proof using All.
    intro G. destruct (find (try_ok Y) [0; 1; 2; 3]) as [j|] eqn:F; [|reflexivity]. exfalso. apply find_some in F. destruct F as [_ T].
    unfold try_ok in T. apply andb_true_iff in T. rewrite !Z.eqb_eq in T. destruct T as [T1 T2]. apply G.
    pose proof (blum_pos p P P4). pose proof (blum_pos q Q Q4). pose proof N_pos.
    assert (S : forall r, prime r -> r mod 4 = 3 -> (r | N) -> legendre (mod_adj W N Y (j mod 2) (j / 2)) r = 1 -> Z.gcd Y r = 1).
    { intros r Pr R4 Dr L. apply unit_iff; [assumption..|]. intro D. apply legendre_1 in L; [|pose proof (prime_ge_2 _ Pr); lia]. destruct L as [L _]. apply L.
      apply cong_0. apply cong_0 in D. rewrite (cong_div _ _ _ _ Dr (mod_adj_spec W N Y (j mod 2) (j / 2) ltac:(lia))). rewrite D, !Z.mul_0_r. reflexivity. }
    apply gcd_prod. split; apply S; try assumption; [apply Z.divide_factor_l|apply Z.divide_factor_r].
  Qed.

  Hypothesis Inv : Z.gcd N phi = 1.
  Notation expo := ((((phi + 4) / 8) * ((phi + 4) / 8)) mod phi).

  Lemma phi_pos : 4 <= phi. Proof using P Q P4 Q4. apply phi_ge; [apply (blum_pos p P P4)|apply (blum_pos q Q Q4)]. Qed.
  Lemma inv_exists : exists iv, mi_inv phi N = Some iv /\ 0 <= iv < phi /\ cong phi (N * iv) 1.
  Proof using All. pose proof phi_pos. unfold mi_inv. rewrite Z.abs_eq by lia. apply invm_some; [lia|exact Inv]. Qed.

  Lemma unit_nonzero x : 0 <= x < N -> Z.gcd x N = 1 -> 0 < x.
  Proof using P Q P4 Q4. intros R G. pose proof N_pos. destruct (Z.eq_dec x 0) as [->|]; [rewrite Z.gcd_0_l, Z.abs_eq in G by lia; lia|lia]. Qed.

  (** one pass *)
  Lemma pass_unit iv Y : mi_inv phi N = Some iv -> 0 <= iv < phi -> cong phi (N * iv) 1 -> 0 <= Y < N -> Z.gcd Y N = 1 ->
    exists a b X z, mod_pass W N p q expo (mi_inv phi N) Y = Ret (Some (a, b, X, z)) /\ (a = 0 \/ a = 1) /\ (b = 0 \/ b = 1) /\
      0 < X < N /\ 0 < z < N /\ cong N (z ^ N) Y /\ cong N (X ^ 4) ((if 0 <? b then W else 1) * ((if 0 <? a then -1 else 1) * Y)).
  Proof using All.
    intros Ei Ri Ci Hy G. destruct (find_unit Y G) as [j [Ij [Ef Ok]]]. unfold mod_pass. rewrite mod_try_find, Ef by exact Hy. cbn [obind].
    set (a := j mod 2) in *. set (b := j / 2) in *. set (y := mod_adj W N Y a b) in *. pose proof N_pos as HN. pose proof phi_pos as Hphi.
    assert (Re : 0 <= expo < phi) by (apply Z.mod_pos_bound; lia).
    rewrite !mi_exp_pos by lia. rewrite expm_nonneg by lia. cbn [deref obind]. rewrite Ei. cbn [deref obind]. rewrite ?mi_exp_pos by lia. rewrite expm_nonneg by lia. cbn [deref obind].
    exists a, b, (y ^ expo mod N), (Y ^ iv mod N). split; [reflexivity|].
    assert (Ha : a = 0 \/ a = 1) by (unfold a; lia). assert (Hb : b = 0 \/ b = 1) by (unfold b; destruct Ij as [<-|[<-|[<-|[<-|[]]]]]; cbn; tauto).
    split; [exact Ha|]. split; [exact Hb|].
    assert (Ry : 0 <= y < N) by now apply mod_adj_range.
    assert (Gy : Z.gcd y N = 1).
    { unfold y. rewrite (gcd_cong _ _ _ (mod_adj_spec W N Y a b ltac:(lia))). apply gcd_mul_1.
      - destruct (0 <? b); [apply gcd_prod; apply W_unit|apply Z.gcd_1_l].
      - apply gcd_mul_1; [|exact G]. destruct (0 <? a); apply (Z.gcd_1_l N). }
    assert (U : forall x k, 0 <= k -> Z.gcd x N = 1 -> 0 < x ^ k mod N < N).
    { intros x k Hk Gx. pose proof (Z.mod_pos_bound (x ^ k) N ltac:(lia)) as R. split; [|lia]. apply unit_nonzero; [exact R|].
      rewrite (gcd_cong N (x ^ k mod N) (x ^ k)) by (apply cong_mod; lia). now apply gcd_pow_1. }
    split; [apply U; [lia|exact Gy]|]. split; [apply U; [lia|exact G]|].
    assert (Cm : forall x k, cong N ((x mod N) ^ k) (x ^ k)) by (intros; apply cong_pow, cong_mod; lia).
    rewrite !Cm. apply gcd_prod in G, Gy. unfold try_ok in Ok. fold a b y in Ok. apply andb_true_iff in Ok. rewrite !Z.eqb_eq in Ok.
    split.
    - apply cong_crt; [exact pq_rel_prime|apply nth_root; try assumption; [tauto|lia]|].
      rewrite (Z.mul_comm p q). apply nth_root; try assumption; [tauto|lia|]. rewrite (Z.mul_comm q p), (Z.mul_comm (q - 1)). exact Ci.
    - transitivity y; [|apply mod_adj_spec; lia]. apply cong_crt; [exact pq_rel_prime|apply fourth_root; tauto|].
      rewrite (Z.mul_comm (p - 1) (q - 1)). apply fourth_root; tauto.
  Qed.
  Lemma pass_nonunit iv Y : 0 <= Y < N -> Z.gcd Y N <> 1 -> mod_pass W N p q expo iv Y = Ret None.
  Proof using All. intros Hy G. unfold mod_pass. rewrite mod_try_find by exact Hy. rewrite (find_nonunit Y G). reflexivity. Qed.

  Variable H : bytes -> bytes.
  Variable pp : Z -> bool.
  Hypothesis NotPrime : pp N = false.
  Variable s : bytes.
  Notation ys := (mod_ys H s W N 80).

  Theorem honest : exists pf, mod_new H s N p q W = Ret pf /\ mp_wf pf /\
    (mod_verify H pp s N (Some pf) = Ret true <-> Forall (fun y => Z.gcd y N = 1) ys) /\
    (mod_verify H pp s N (Some pf) = Ret true \/ mod_verify H pp s N (Some pf) = Ret false).
  Proof using All.
    destruct inv_exists as [iv [Ei [Ri Ci]]]. pose proof N_pos as HN. pose proof phi_pos as Hphi.
    unfold mod_new. unfold mi_mul. rewrite big_mod_pos by lia. cbn [obind].
    set (f := fun y => match mod_pass W N p q expo (mi_inv phi N) y with Ret o => o | Panic => None end).
    assert (Fy : forall y, In y ys -> mod_pass W N p q expo (mi_inv phi N) y = Ret (f y)).
    { intros y I. unfold f. apply (mod_ys_range H s W N 80 y) in I; [|lia]. destruct (Z.eq_dec (Z.gcd y N) 1) as [G|G].
      - destruct (pass_unit iv y Ei Ri Ci I G) as (a & b & X & z & E & _). rewrite E. reflexivity.
      - rewrite pass_nonunit by assumption. reflexivity. }
    rewrite (omap_i_ok _ (fun _ y => f y)) by (intros j y E; apply Fy; exact (nth_error_In _ _ E)). cbn [obind].
    rewrite map_snd_seq. change mod_iters with 80%nat. rewrite !map_map.
    assert (Len : length ys = 80%nat) by apply mod_ys_length.
    match goal with |- exists pf, Ret ?x = Ret pf /\ _ => set (PF := x) end. exists PF. split; [reflexivity|].
    assert (WF : mp_wf PF) by (split; unfold PF; cbn [mp_X mp_Z]; rewrite map_length; exact Len).
    split; [exact WF|].
    assert (Main : mod_verify H pp s N (Some PF) = Ret true <-> Forall (fun y => Z.gcd y N = 1) ys).
    { rewrite (C32_verify H pp s N PF WF). split.
      - intros (W' & A & B & _ & _ & _ & _ & _ & _ & _ & _ & _ & F). apply Forall_forall. intros y I.
        destruct (In_nth_error _ _ I) as [i E]. assert (Hi : (i < 80)%nat) by (rewrite <- Len; apply nth_error_Some; rewrite E; discriminate).
        destruct (F i Hi) as (x & z & y' & Ex & _). unfold PF in Ex. cbn [mp_X] in Ex. rewrite nth_error_map in Ex. change mod_iters with 80%nat in Ex. rewrite E in Ex. cbn [option_map] in Ex.
        destruct (Z.eq_dec (Z.gcd y N) 1) as [G|G]; [exact G|exfalso]. assert (Fn : f y = None) by (unfold f; rewrite pass_nonunit; [reflexivity| |exact G]; apply (mod_ys_range H s W N 80 y); [lia|exact I]).
        rewrite Fn in Ex. discriminate.
      - intro F. unfold PF. cbn [mp_W mp_X mp_A mp_B mp_Z]. do 3 eexists. split; [reflexivity|]. split; [reflexivity|]. split; [reflexivity|].
        split; [split; [|lia]; apply unit_nonzero; [lia|apply gcd_prod; exact W_unit]|].
        split. { rewrite Z.odd_mul. pose proof (blum_pos p P P4). pose proof (blum_pos q Q Q4).
          apply andb_true_iff. split; apply Z.odd_spec; [exists ((p - 1) / 2)|exists ((q - 1) / 2)]; lia. }
        split; [rewrite WJ; discriminate|]. split; [exact NotPrime|].
        change mod_iters with 80%nat.
        match goal with |- bitlen (set_bits _ 0 ?la) = 81 /\ bitlen (set_bits _ 0 ?lb) = 81 /\ _ => set (lA := la); set (lB := lb) end.
        destruct (set_bits_80 lA) as [BA TA]; [unfold lA; rewrite map_length; exact Len|].
        destruct (set_bits_80 lB) as [BB TB]; [unfold lB; rewrite map_length; exact Len|].
        split; [exact BA|]. split; [exact BB|]. intros i Hi. rewrite (TA i Hi), (TB i Hi).
        destruct (nth_error ys i) as [y|] eqn:E; [|apply nth_error_None in E; lia].
        assert (G : Z.gcd y N = 1) by (rewrite Forall_forall in F; apply F; exact (nth_error_In _ _ E)).
        assert (Ry : 0 <= y < N) by (apply (mod_ys_range H s W N 80 y); [lia|exact (nth_error_In _ _ E)]).
        destruct (pass_unit iv y Ei Ri Ci Ry G) as (a & b & X & z & Ep & Ha & Hb & RX & Rz & Cz & CX).
        assert (Ef : f y = Some (a, b, X, z)) by (unfold f; rewrite Ep; reflexivity).
        exists X, z, y. rewrite !nth_error_map, E. cbn [option_map]. rewrite Ef.
        assert (NA : nth i lA 0 = a) by (unfold lA; apply nth_error_nth; rewrite nth_error_map, E; cbn [option_map]; rewrite Ef; reflexivity).
        assert (NB : nth i lB 0 = b) by (unfold lB; apply nth_error_nth; rewrite nth_error_map, E; cbn [option_map]; rewrite Ef; reflexivity).
        rewrite NA, NB. do 3 (split; [reflexivity|]). split; [exact RX|]. split; [exact Rz|]. split; [exact Cz|].
        replace ((if 0 <? a then -1 else 1) * (if 0 <? b then W else 1) * y) with ((if 0 <? b then W else 1) * ((if 0 <? a then -1 else 1) * y)) by ring. exact CX. }
    split; [exact Main|].
    destruct (Forall_dec (fun y => Z.gcd y N = 1) (fun y => Z.eq_dec _ _) ys) as [F|F]; [left; now apply Main|right].
    (* some challenge is not a unit: its X is nil and ValidateBasic fails *)
    unfold mod_verify. replace (is_some (mp_W PF) && forallb is_some (mp_X PF) && is_some (mp_A PF) && is_some (mp_B PF) && forallb is_some (mp_Z PF)) with false; [reflexivity|].
    assert (K : forallb is_some (mp_X PF) = false).
    { destruct (forallb is_some (mp_X PF)) eqn:E; [|reflexivity]. destruct F. apply Forall_forall. intros y I.
      destruct (Z.eq_dec (Z.gcd y N) 1) as [G|G]; [exact G|exfalso]. rewrite forallb_forall in E. assert (Fn : f y = None) by (unfold f; rewrite pass_nonunit; [reflexivity| |exact G]; apply (mod_ys_range H s W N 80 y); [lia|exact I]).
      assert (IN : In None (mp_X PF)) by (unfold PF; cbn [mp_X]; apply in_map_iff; exists y; rewrite Fn; split; [reflexivity|exact I]). apply E in IN. discriminate IN. }
    rewrite K, andb_false_r. reflexivity.
  Qed.
End Honest.

(** The proof for N = p*q, both primes congruent 3 modulo 4, N invertible modulo (p-1)(q-1), with W drawn by the
    code's own sampler: NewProof returns, Verify returns, and it accepts exactly when no challenge shares a factor
    with N (a challenge that does would reveal the factorization). *)
Theorem C32_complete H pp p q src W src' s : prime p -> prime q -> p mod 4 = 3 -> q mod 4 = 3 ->
  Z.gcd (p * q) ((p - 1) * (q - 1)) = 1 -> pp (p * q) = false ->
  qnr (p * q) src (Ret (W, src')) ->
  exists pf, mod_new H s (p * q) p q W = Ret pf /\ mp_wf pf /\
    (mod_verify H pp s (p * q) (Some pf) = Ret true <-> Forall (fun y => rel_prime y (p * q)) (mod_ys H s W (p * q) 80)) /\
    (mod_verify H pp s (p * q) (Some pf) = Ret true \/ mod_verify H pp s (p * q) (Some pf) = Ret false).
Proof.
  intros P Q P4 Q4 Inv NP R.
  assert (K : 0 <= W < p * q /\ jac W (p * q) = Ret (-1)).
  { remember (Ret (W, src')) as o eqn:E. induction R as [x w x' Pi J| | | |]; try discriminate; [|auto]. injection E as -> ->.
    apply C41_positive_int in Pi. destruct Pi as [m [Em [Hw _]]]. injection Em as <-. split; [lia|exact J]. }
  destruct K as [W0 WJ]. destruct (honest p q W P Q P4 Q4 W0 WJ Inv H pp NP s) as (pf & E & WF & M & V).
  exists pf. split; [exact E|]. split; [exact WF|]. split; [|exact V]. rewrite M. split; intro F; eapply Forall_impl; try exact F; intros y G; now apply Zgcd_1_rel_prime.
Qed.

(** an even modulus is not refused but crashes the verifier: the symbol of W is taken before the parity check *)
Theorem C32_even_modulus_refuted H pp s N pf : mp_full pf -> Z.even N = true -> mod_verify H pp s N (Some pf) = Panic.
Proof.
  intros ([LX LZ] & [w [Ew _]] & [a [Ea _]] & [b [Eb _]] & FX & FZ) Ev. unfold mod_verify. rewrite Ew, Ea, Eb.
  assert (K : forall l, Forall positive l -> forallb is_some l = true) by (induction 1 as [|o l [z [-> _]] _ IH]; [reflexivity|exact IH]).
  rewrite (K _ FX), (K _ FZ). cbn [is_some andb negb opt0]. unfold jac. rewrite Ev. reflexivity.
Qed.
(** a missing proof, or one with a nil part, is refused *)
Theorem C32_nil H pp s N pf : (pf = None \/ exists m, pf = Some m /\ (mp_W m = None \/ mp_A m = None \/ mp_B m = None \/ In None (mp_X m) \/ In None (mp_Z m))) ->
  mod_verify H pp s N pf = Ret false.
Proof.
  assert (K : forall l : list (option Z), In None l -> forallb is_some l = false).
  { intros l I. destruct (forallb is_some l) eqn:E; [|reflexivity]. rewrite forallb_forall in E. now specialize (E None I). }
  intros [->|[m [-> C]]]; [reflexivity|]. unfold mod_verify.
  replace (is_some (mp_W m) && forallb is_some (mp_X m) && is_some (mp_A m) && is_some (mp_B m) && forallb is_some (mp_Z m)) with false; [reflexivity|].
  destruct C as [C|[C|[C|[C|C]]]]; [rewrite C|rewrite C|rewrite C|rewrite (K _ C)|rewrite (K _ C)]; cbn [is_some]; rewrite ?andb_false_r; reflexivity.
Qed.

(** a concrete prover: N = 7 * 11, gcd(77, 60) = 1, W = 5 has symbol -1; with a hash that always gives 3 the proof
    is made and accepted *)
Theorem C32_example : let H := fun _ : bytes => [zb 3] in let pp := fun z : Z => false in
  jac 5 77 = Ret (-1) /\ Forall (fun y => rel_prime y 77) (mod_ys H [] 5 77 80) /\
  exists pf, mod_new H [] 77 7 11 5 = Ret pf /\ mod_verify H pp [] 77 (Some pf) = Ret true.
Proof.
  intros H pp.
  assert (J : jac 5 77 = Ret (-1)) by (vm_compute; reflexivity).
  assert (Y : Forall (fun y => rel_prime y 77) (mod_ys H [] 5 77 80)).
  { generalize 80%nat. intro k. Transparent mod_ys. induction k as [|k IH]; cbn [mod_ys]; [constructor|]. apply Forall_app. split; [exact IH|]. constructor; [|constructor].
    unfold sha_tagged. change (of_be (H _)) with 3. change (3 mod 77) with 3. apply Zgcd_1_rel_prime. reflexivity. }
  split; [exact J|]. split; [exact Y|].
  assert (P7 : prime 7) by (apply prime_intro; [lia|]; intros n Hn; apply Zgcd_1_rel_prime; assert (n = 1 \/ n = 2 \/ n = 3 \/ n = 4 \/ n = 5 \/ n = 6) as C by lia; destruct C as [->|[->|[->|[->|[->| ->]]]]]; reflexivity).
  assert (P11 : prime 11) by (apply prime_intro; [lia|]; intros n Hn; apply Zgcd_1_rel_prime; assert (n = 1 \/ n = 2 \/ n = 3 \/ n = 4 \/ n = 5 \/ n = 6 \/ n = 7 \/ n = 8 \/ n = 9 \/ n = 10) as C by lia; destruct C as [->|[->|[->|[->|[->|[->|[->|[->|[->| ->]]]]]]]]]; reflexivity).
  destruct (honest 7 11 5 P7 P11 eq_refl eq_refl ltac:(lia) J eq_refl H pp eq_refl []) as (pf & E & _ & M & _).
  exists pf. split; [exact E|]. apply M. eapply Forall_impl; [|exact Y]. intros y G. now apply Zgcd_1_rel_prime.
Qed.
