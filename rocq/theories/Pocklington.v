(** Pocklington.v -- primality certificates, used for the curve parameters of Ed25519 (tss/curve.go 88-90: edwards.Edwards())
    and secp256k1 (package/.../btcec/v1/btcec.go 930-940).  Pure number theory; nothing here models Go code. *)
From Verif Require Import Base NumTh Euler Carmichael Jacobi Primes PropPrimes.
From Coq Require Import Znumtheory.

(** a^e modulo m by repeated squaring, every product reduced by [red] *)
Fixpoint ppow (red : Z -> Z) (a : Z) (e : positive) : Z :=
  match e with
  | xH => a
  | xO e => let t := ppow red a e in red (t * t)
  | xI e => let t := ppow red a e in red (red (t * t) * a)
  end.
Lemma ppow_spec m red a e : (forall x, 0 <= x -> 0 <= red x /\ cong m (red x) x) -> 0 <= a ->
  0 <= ppow red a e /\ cong m (ppow red a e) (a ^ Zpos e).
Proof.
  intros R A. induction e as [e [N IH]|e [N IH]|]; cbn [ppow]; [| |rewrite Z.pow_1_r; split; [exact A|reflexivity]].
  - destruct (R (ppow red a e * ppow red a e) ltac:(nia)) as [N1 E1]. destruct (R (red (ppow red a e * ppow red a e) * a) ltac:(nia)) as [N2 E2].
    split; [exact N2|]. rewrite E2, E1, IH. rewrite Pos2Z.inj_xI.
    replace (2 * Zpos e + 1) with (Zpos e + Zpos e + 1) by lia. rewrite !Z.pow_add_r by lia. rewrite Z.pow_1_r. reflexivity.
  - destruct (R (ppow red a e * ppow red a e) ltac:(nia)) as [N1 E1]. split; [exact N1|]. rewrite E1, IH, Pos2Z.inj_xO.
    replace (2 * Zpos e) with (Zpos e + Zpos e) by lia. rewrite Z.pow_add_r by lia. reflexivity.
Qed.
Lemma red_mod m : 0 < m -> forall x, 0 <= x -> 0 <= x mod m /\ cong m (x mod m) x.
Proof. intros M x _. split; [apply Z.mod_pos_bound; lia|apply cong_mod; lia]. Qed.
(** reduction modulo 2^k - c (c > 0) *)
Definition fold_sub (k c x : Z) : Z := Z.land x (Z.ones k) + c * Z.shiftr x k.
Lemma fold_sub_ok k c x : 0 <= k -> 0 <= c -> 0 <= x -> 0 <= fold_sub k c x /\ cong (2 ^ k - c) (fold_sub k c x) x.
Proof.
  intros K C X. unfold fold_sub. rewrite Z.land_ones, Z.shiftr_div_pow2 by lia. assert (P : 0 < 2 ^ k) by lia.
  pose proof (Z.mod_pos_bound x (2 ^ k) P). pose proof (Z.div_pos x (2 ^ k) X P). split; [nia|].
  exists (- (x / 2 ^ k)). rewrite (Z.mod_eq x (2 ^ k)) by lia. ring.
Qed.
(** reduction modulo 2^k + c (c > 0); b is a multiple of 2^k + c *)
Definition fold_add (k c b x : Z) : Z := let r := Z.land x (Z.ones k) + b - c * Z.shiftr x k in if r <? 0 then x else r.
Lemma fold_add_ok k c b x : 0 <= k -> 0 <= c -> (2 ^ k + c | b) -> 0 <= x -> 0 <= fold_add k c b x /\ cong (2 ^ k + c) (fold_add k c b x) x.
Proof.
  intros K C [m ->] X. unfold fold_add. cbv zeta. destruct (Z.ltb_spec (Z.land x (Z.ones k) + m * (2 ^ k + c) - c * Z.shiftr x k) 0); [split; [exact X|reflexivity]|].
  split; [assumption|]. rewrite Z.land_ones, Z.shiftr_div_pow2 by lia. exists (m - x / 2 ^ k). assert (P : 0 < 2 ^ k) by lia.
  rewrite (Z.mod_eq x (2 ^ k)) by lia. ring.
Qed.

(** every prime divisor of N is 1 modulo q *)
Lemma pock_divisor N q b : 1 < N -> prime q -> cong N (b ^ q) 1 -> Z.gcd (b - 1) N = 1 ->
  forall r, prime r -> (r | N) -> (q | r - 1).
Proof.
  intros HN Pq F G r Pr D. pose proof (prime_ge_2 _ Pr) as R2. pose proof (prime_ge_2 _ Pq) as Q2.
  apply (cong_div N r) in F; [|exact D].
  assert (B1 : ~ cong r b 1).
  { intro C. assert (X : (r | Z.gcd (b - 1) N)) by (apply Z.gcd_greatest; [exact C|exact D]). rewrite G in X. apply Z.divide_1_r in X. lia. }
  assert (Gb : Z.gcd b r = 1).
  { apply Zgcd_1_rel_prime. apply rel_prime_sym. apply prime_rel_prime; [exact Pr|]. intro X.
    assert (Y : cong r (b ^ q) 0).
    { rewrite (cong_pow r b 0 q) by (now apply cong_0). rewrite Z.pow_0_l by lia. reflexivity. }
    assert (Z1 : cong r 1 0) by (rewrite <- F; exact Y). apply cong_0 in Z1. apply Z.divide_1_r in Z1. lia. }
  destruct (Zdivide_dec q (r - 1)) as [Y|Y]; [exact Y|exfalso]. apply B1.
  assert (Q1 : Z.gcd q (r - 1) = 1) by (apply Zgcd_1_rel_prime, prime_rel_prime; assumption).
  destruct (Z.eq_dec r 2) as [->|R3].
  { (* r = 2: an odd b *) change (2 - 1) with 1 in Y. exfalso. apply B1.
    pose proof (fermat 2 b Pr Gb) as X. change (2 - 1) with 1 in X. rewrite Z.pow_1_r in X. exact X. }
  destruct (invm_some q (r - 1) ltac:(lia) Q1) as [u [_ [Hu [v Hv]]]].
  assert (V : 0 <= v) by nia.
  assert (X : cong r (b ^ (q * u)) 1) by (rewrite Z.pow_mul_r by lia; rewrite (cong_pow r _ 1 u F); rewrite Z.pow_1_l by lia; reflexivity).
  replace (q * u) with ((r - 1) * v + 1) in X by lia. rewrite Z.pow_add_r, Z.pow_mul_r, Z.pow_1_r in X by nia.
  rewrite (cong_pow r _ 1 v (fermat r b Pr Gb)) in X. rewrite Z.pow_1_l, Z.mul_1_l in X by lia. exact X.
Qed.

Lemma prod_divides qs x : Forall prime qs -> NoDup qs -> (forall q, In q qs -> (q | x)) -> (fold_right Z.mul 1 qs | x).
Proof.
  induction qs as [|q qs IH]; intros P ND D; cbn [fold_right]; [apply Z.divide_1_l|].
  inversion P as [|? ? Pq Pr]; subst. inversion ND as [|? ? N1 N2]; subst.
  assert (I : (fold_right Z.mul 1 qs | x)) by (apply IH; auto; intros; apply D; now right).
  assert (Rl : rel_prime q (fold_right Z.mul 1 qs)).
  { clear - Pq Pr N1. induction qs as [|r qs IH]; cbn [fold_right]; [apply rel_prime_sym, rel_prime_1|].
    inversion Pr; subst. apply rel_prime_mult; [apply primes_rel; auto; intro E; apply N1; now left|apply IH; auto; intro X; apply N1; now right]. }
  destruct I as [k Hk]. assert (Dq : (q | x)) by (apply D; now left).
  rewrite Hk in Dq. rewrite Z.mul_comm in Dq. apply Gauss in Dq; [|exact Rl]. destruct Dq as [j Hj]. exists j. rewrite Hk, Hj. ring.
Qed.

Fixpoint nodupb (l : list Z) : bool := match l with [] => true | x :: r => negb (existsb (Z.eqb x) r) && nodupb r end.
Lemma nodupb_ok l : nodupb l = true -> NoDup l.
Proof.
  induction l as [|x l IH]; cbn [nodupb]; intro H; constructor; apply andb_prop in H as [A B]; [|auto].
  intro I. apply negb_true_iff in A. assert (X : existsb (Z.eqb x) l = true) by (apply existsb_exists; exists x; split; [exact I|apply Z.eqb_refl]). congruence.
Qed.
(** the certificate: distinct primes qs dividing N - 1 whose product exceeds the square root of N; base 2 everywhere *)
Definition cert_ok (red : Z -> Z) (N : Z) (qs : list Z) : bool :=
  (1 <? N) && nodupb qs && (N <? fold_right Z.mul 1 qs * fold_right Z.mul 1 qs) &&
  forallb (fun q => let R := (N - 1) / q in
             (q * R =? N - 1) &&
             match R with
             | Zpos e => let t := ppow red 2 e in
                         match q with Zpos e' => (ppow red t e' mod N =? 1) && (Z.gcd (t - 1) N =? 1) | _ => false end
             | _ => false end) qs.

Lemma pocklington_red red N qs : (forall x, 0 <= x -> 0 <= red x /\ cong N (red x) x) -> Forall prime qs -> cert_ok red N qs = true -> prime N.
Proof.
  intros RD P H. unfold cert_ok in H. apply andb_prop in H as [H Hq]. apply andb_prop in H as [H HF]. apply andb_prop in H as [H1 ND].
  apply Z.ltb_lt in H1. apply Z.ltb_lt in HF. apply nodupb_ok in ND. rewrite forallb_forall in Hq.
  set (F := fold_right Z.mul 1 qs) in *.
  assert (D : forall r, prime r -> (r | N) -> (F | r - 1)).
  { intros r Pr Dr. apply prod_divides; auto. intros q I. specialize (Hq q I). cbv zeta in Hq. apply andb_prop in Hq as [E Hq]. apply Z.eqb_eq in E.
    rewrite Forall_forall in P. specialize (P q I).
    destruct ((N - 1) / q) as [|e|e] eqn:ER; try discriminate. destruct q as [|e'|e']; try discriminate.
    apply andb_prop in Hq as [A B]. apply Z.eqb_eq in A. apply Z.eqb_eq in B.
    apply (pock_divisor N (Zpos e') (ppow red 2 e)); auto.
    destruct (ppow_spec N red 2 e RD ltac:(lia)) as [T0 _]. destruct (ppow_spec N red _ e' RD T0) as [_ T1]. rewrite <- T1.
    apply cong_eq; [lia|]. rewrite A. symmetry. apply Z.mod_small. lia. }
  destruct (lpf_spec N ltac:(lia)) as [Pr [[k Hk] Le]]. set (r := lpf N) in *. clearbody r. pose proof (prime_ge_2 _ Pr) as R2.
  destruct (Z.eq_dec r N) as [->|NE]; [exact Pr|exfalso].
  assert (K2 : 2 <= k) by nia.
  assert (Dr : (F | r - 1)) by (apply D; [exact Pr|exists k; lia]).
  assert (F0 : 0 < F).
  { subst F. clear - P. induction P as [|q qs Pq _ IH]; cbn [fold_right]; [lia|]. pose proof (prime_ge_2 _ Pq). nia. }
  assert (G1 : F <= r - 1) by (apply Z.divide_pos_le; [lia|exact Dr]).
  (* another prime divisor, of k *)
  destruct (lpf_spec k ltac:(lia)) as [Ps [[j Hj] Ls]]. set (s := lpf k) in *. clearbody s. pose proof (prime_ge_2 _ Ps) as S2.
  assert (Ds : (F | s - 1)) by (apply D; [exact Ps|exists (j * r); rewrite Hk, Hj; ring]).
  assert (G2 : F <= s - 1) by (apply Z.divide_pos_le; [lia|exact Ds]).
  assert (J : 1 <= j) by nia. assert (s <= k) by nia. nia.
Qed.
Lemma pocklington_cert N qs : Forall prime qs -> cert_ok (fun x => x mod N) N qs = true -> prime N.
Proof.
  intros P H. assert (H1 : 1 < N) by (unfold cert_ok in H; repeat apply andb_prop in H as [H _]; now apply Z.ltb_lt).
  apply (pocklington_red (fun x => x mod N) N qs); auto. apply red_mod. lia.
Qed.

Lemma prime_1723 : prime 1723.
Proof. apply (pocklington_cert _ [41; 7]); [constructor; [apply small_prime; [lia|reflexivity]|]; constructor; [apply small_prime; [lia|reflexivity]|]; constructor|vm_compute; reflexivity]. Qed.
Lemma prime_2551 : prime 2551.
Proof. apply (pocklington_cert _ [17; 5]); [constructor; [apply small_prime; [lia|reflexivity]|]; constructor; [apply small_prime; [lia|reflexivity]|]; constructor|vm_compute; reflexivity]. Qed.
Lemma prime_3797 : prime 3797.
Proof. apply (pocklington_cert _ [73]); [constructor; [apply small_prime; [lia|reflexivity]|]; constructor|vm_compute; reflexivity]. Qed.
Lemma prime_4153 : prime 4153.
Proof. apply (pocklington_cert _ [173]); [constructor; [apply small_prime; [lia|reflexivity]|]; constructor|vm_compute; reflexivity]. Qed.
Lemma prime_430751 : prime 430751.
Proof. apply (pocklington_cert _ [1723]); [constructor; [exact prime_1723|]; constructor|vm_compute; reflexivity]. Qed.
Lemma prime_531581 : prime 531581.
Proof. apply (pocklington_cert _ [3797]); [constructor; [exact prime_3797|]; constructor|vm_compute; reflexivity]. Qed.
Lemma prime_569003 : prime 569003.
Proof. apply (pocklington_cert _ [419; 97]); [constructor; [apply small_prime; [lia|reflexivity]|]; constructor; [apply small_prime; [lia|reflexivity]|]; constructor|vm_compute; reflexivity]. Qed.
Lemma prime_1224481 : prime 1224481.
Proof. apply (pocklington_cert _ [2551]); [constructor; [exact prime_2551|]; constructor|vm_compute; reflexivity]. Qed.
Lemma prime_8574133 : prime 8574133.
Proof. apply (pocklington_cert _ [991; 103]); [constructor; [apply small_prime; [lia|reflexivity]|]; constructor; [apply small_prime; [lia|reflexivity]|]; constructor|vm_compute; reflexivity]. Qed.
Lemma prime_2773320623 : prime 2773320623.
Proof. apply (pocklington_cert _ [569003]); [constructor; [exact prime_569003|]; constructor|vm_compute; reflexivity]. Qed.
Lemma prime_72106336199 : prime 72106336199.
Proof. apply (pocklington_cert _ [2773320623]); [constructor; [exact prime_2773320623|]; constructor|vm_compute; reflexivity]. Qed.
Lemma prime_1257559732178653 : prime 1257559732178653.
Proof. apply (pocklington_cert _ [1224481; 531581]); [constructor; [exact prime_1224481|]; constructor; [exact prime_531581|]; constructor|vm_compute; reflexivity]. Qed.
Lemma prime_1919519569386763 : prime 1919519569386763.
Proof. apply (pocklington_cert _ [8574133; 127]); [constructor; [exact prime_8574133|]; constructor; [apply small_prime; [lia|reflexivity]|]; constructor|vm_compute; reflexivity]. Qed.
Lemma prime_31757755568855353 : prime 31757755568855353.
Proof. apply (pocklington_cert _ [430751; 4153]); [constructor; [exact prime_430751|]; constructor; [exact prime_4153|]; constructor|vm_compute; reflexivity]. Qed.
Lemma prime_4434155615661930479 : prime 4434155615661930479.
Proof. apply (pocklington_cert _ [1257559732178653]); [constructor; [exact prime_1257559732178653|]; constructor|vm_compute; reflexivity]. Qed.
Lemma prime_b88_691 : prime 172054593956031949258510691.
Proof. apply (pocklington_cert _ [4434155615661930479]); [constructor; [exact prime_4434155615661930479|]; constructor|vm_compute; reflexivity]. Qed.
Lemma prime_b116_801 : prime 75445702479781427272750846543864801.
Proof. apply (pocklington_cert _ [1919519569386763; 72106336199]); [constructor; [exact prime_1919519569386763|]; constructor; [exact prime_72106336199|]; constructor|vm_compute; reflexivity]. Qed.
Lemma prime_b134_339 : prime 19757330305831588566944191468367130476339.
Proof. apply (pocklington_cert _ [172054593956031949258510691]); [constructor; [exact prime_b88_691|]; constructor|vm_compute; reflexivity]. Qed.
Lemma prime_b138_747 : prime 276602624281642239937218680557139826668747.
Proof. apply (pocklington_cert _ [19757330305831588566944191468367130476339]); [constructor; [exact prime_b134_339|]; constructor|vm_compute; reflexivity]. Qed.
Lemma prime_b236_907 : prime 74058212732561358302231226437062788676166966415465897661863160754340907.
Proof. apply (pocklington_cert _ [75445702479781427272750846543864801; 31757755568855353]); [constructor; [exact prime_b116_801|]; constructor; [exact prime_31757755568855353|]; constructor|vm_compute; reflexivity]. Qed.
(** the order of the Ed25519 base point, 2^252 + c *)
Definition ell_c : Z := 27742317777372353535851937790883648493.
Definition red_ell (x : Z) : Z :=
  let f b x := fold_add 252 ell_c (b * (2 ^ 252 + ell_c)) x in f 1 (f (2 ^ 12) (f (2 ^ 137) x)).
Lemma red_ell_ok x : 0 <= x -> 0 <= red_ell x /\ cong (2 ^ 252 + ell_c) (red_ell x) x.
Proof.
  intro X. unfold red_ell. cbv zeta. assert (D : forall b, (2 ^ 252 + ell_c | b * (2 ^ 252 + ell_c))) by (intro b; exists b; reflexivity).
  assert (C : 0 <= ell_c) by (vm_compute; discriminate).
  destruct (fold_add_ok 252 ell_c _ x ltac:(lia) C (D (2 ^ 137)) X) as [N1 E1]. set (y := fold_add 252 ell_c (2 ^ 137 * _) x) in *. clearbody y.
  destruct (fold_add_ok 252 ell_c _ y ltac:(lia) C (D (2 ^ 12)) N1) as [N2 E2]. set (z := fold_add 252 ell_c (2 ^ 12 * _) y) in *. clearbody z.
  destruct (fold_add_ok 252 ell_c _ z ltac:(lia) C (D 1) N2) as [N3 E3]. split; [exact N3|]. rewrite E3, E2. exact E1.
Qed.
Lemma prime_ell : prime (2 ^ 252 + ell_c).
Proof. apply (pocklington_red red_ell _ [276602624281642239937218680557139826668747] red_ell_ok); [constructor; [exact prime_b138_747|]; constructor|vm_compute; reflexivity]. Qed.
(** the Ed25519 field *)
Definition red_25519 (x : Z) : Z := fold_sub 255 19 (fold_sub 255 19 x).
Lemma red_25519_ok x : 0 <= x -> 0 <= red_25519 x /\ cong (2 ^ 255 - 19) (red_25519 x) x.
Proof.
  intro X. unfold red_25519. destruct (fold_sub_ok 255 19 x ltac:(lia) ltac:(lia) X) as [N1 E1]. set (y := fold_sub 255 19 x) in *. clearbody y.
  destruct (fold_sub_ok 255 19 y ltac:(lia) ltac:(lia) N1) as [N2 E2]. split; [exact N2|]. rewrite E2. exact E1.
Qed.
Lemma prime_25519 : prime (2 ^ 255 - 19).
Proof. apply (pocklington_red red_25519 _ [74058212732561358302231226437062788676166966415465897661863160754340907] red_25519_ok); [constructor; [exact prime_b236_907|]; constructor|vm_compute; reflexivity]. Qed.
