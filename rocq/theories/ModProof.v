(** ModProof.v -- crypto/modproof/proof.go.

    [H] is SHA-512/256, [pp] is ProbablyPrime(30).  Arguments of NewProof and the modulus given to Verify are
    non-nil; the fields of a proof may be nil.  The goroutines of Verify write one boolean each to a channel and
    all are awaited: their conjunction is modelled. *)
From Verif Require Import Base BigInt HashFrame NumTh Euler RangeProofs IntMod Dln Random PropRandom Jacobi.
From Coq Require Import Znumtheory.

(** proof.go 18-21 *)
Definition mod_iters : nat := 80.
Definition mod_parts : Z := 163.
(** proof.go 25-32: X and Z are arrays of 80 pointers *)
Record modproof := { mp_W : option Z; mp_X : list (option Z); mp_A : option Z; mp_B : option Z; mp_Z : list (option Z) }.

Section Mod.
  Variable H : bytes -> bytes.
  Variable pp : Z -> bool.

  (** proof.go 46-50 and 141-145: Y_i = RejectionSample(N, SHA512_256i_TAGGED(Session, W, N, Y_0 ... Y_(i-1))),
      the first k of them (N > 0 at both places) *)
  Fixpoint mod_ys (session : bytes) (W N : Z) (k : nat) : list Z :=
    match k with
    | O => []
    | S k => let l := mod_ys session W N k in
             l ++ [match sha_tagged H session (map Some (W :: N :: l)) with Some e => e mod N | None => 0 end]
    end.

  (** proof.go 68-76: (-1)^a W^b Y mod N *)
  Definition mod_adj (W N Y a b : Z) : Z :=
    let y := if 0 <? a then (-1 * Y) mod N else Y in if 0 <? b then (W * y) mod N else y.
  (** proof.go 67-86: j = 0..3, a = j & 1, b = j & 2 >> 1; the first j whose value is a square modulo P and Q *)
  Fixpoint mod_try (W N P Q Y : Z) (js : list Z) : outcome (option (Z * Z * Z)) :=
    match js with
    | [] => Ret None
    | j :: t =>
      let a := j mod 2 in let b := j / 2 in
      let y := mod_adj W N Y a b in
      let! jp := jac y P in
      if jp =? 1 then let! jq := jac y Q in if jq =? 1 then Ret (Some (a, b, y)) else mod_try W N P Q Y t
      else mod_try W N P Q Y t
    end.
  (** one pass of proof.go 66-87: (a, b, X_i, Z_i), or None if nothing was set *)
  Definition mod_pass (W N P Q expo : Z) (invN : option Z) (Y : Z) : outcome (option (Z * Z * Z * Z)) :=
    let! r := mod_try W N P Q Y [0; 1; 2; 3] in
    match r with
    | None => Ret None
    | Some (a, b, y) =>
      let! X := deref (mi_exp N y expo) in
      let! iv := deref invN in
      let! z := deref (mi_exp N Y iv) in
      Ret (Some (a, b, X, z))
    end.
  (** SetBit(A, i, bit) for i = 0, 1, ... *)
  Fixpoint set_bits (acc : Z) (i : Z) (l : list Z) : Z :=
    match l with [] => acc | b :: l => set_bits (if 0 <? b then Z.setbit acc i else Z.clearbit acc i) (i + 1) l end.

  (** proof.go 39-91 NewProof after W has been drawn *)
  Definition mod_new (session : bytes) (N P Q W : Z) : outcome modproof :=
    let phi := (P - 1) * (Q - 1) in
    let ys := mod_ys session W N mod_iters in
    let invN := mi_inv phi N in
    let! expo := mi_mul phi ((phi + 4) / 8) ((phi + 4) / 8) in
    let! l := omap_i (fun _ Y => mod_pass W N P Q expo invN Y) 0 ys in
    Ret {| mp_W := Some W;
           mp_X := map (fun o => match o with Some (_, _, X, _) => Some X | None => None end) l;
           mp_A := Some (set_bits (2 ^ 80) 0 (map (fun o => match o with Some (a, _, _, _) => a | None => 0 end) l));
           mp_B := Some (set_bits (2 ^ 80) 0 (map (fun o => match o with Some (_, b, _, _) => b | None => 0 end) l));
           mp_Z := map (fun o => match o with Some (_, _, _, z) => Some z | None => None end) l |}.

  Definition is_some {A} (o : option A) : bool := match o with Some _ => true | None => false end.
  Definition opt0 (o : option Z) : Z := match o with Some z => z | None => 0 end.

  (** proof.go 118-207 Verify, with ValidateBasic (209-231) *)
  Definition mod_verify (session : bytes) (N : Z) (pf : option modproof) : outcome bool :=
    match pf with
    | None => Ret false
    | Some pf =>
      if negb (is_some (mp_W pf) && forallb is_some (mp_X pf) && is_some (mp_A pf) && is_some (mp_B pf) && forallb is_some (mp_Z pf)) then Ret false else
      let W := opt0 (mp_W pf) in let A := opt0 (mp_A pf) in let B := opt0 (mp_B pf) in
      let X := map opt0 (mp_X pf) in let Zs := map opt0 (mp_Z pf) in
      let! j := jac W N in
      if j =? 1 then Ret false else
      if negb ((0 <? W) && (W <? N)) then Ret false else
      if negb (forallb (fun z => (0 <? z) && (z <? N)) Zs) then Ret false else
      if negb (forallb (fun z => (0 <? z) && (z <? N)) X) then Ret false else
      if negb (bitlen A =? 81) then Ret false else
      if negb (bitlen B =? 81) then Ret false else
      let ys := mod_ys session W N mod_iters in
      if Z.even N || pp N then Ret false else
      oforall_i (fun i t => match t with (Y, (x, z)) =>
        let! l1 := deref (mi_exp N z N) in
        let! l2 := deref (mi_exp N x 4) in
        Ret ((l1 =? Y) && (l2 =? mod_adj W N Y (bit01 A i) (bit01 B i))) end) 0 (combine ys (combine X Zs))
    end.
End Mod.

(** proof.go 233-250 Bytes: a nil X or Z stays an empty part, a nil W, A or B panics *)
Definition mod_bytes (pf : modproof) : outcome (list bytes) :=
  let! W := deref (mp_W pf) in let! A := deref (mp_A pf) in let! B := deref (mp_B pf) in
  Ret (to_be W :: big_ints_to_bytes (mp_X pf) ++ [to_be A; to_be B] ++ big_ints_to_bytes (mp_Z pf)).
(** proof.go 93-116 NewProofFromBytes *)
Definition mod_from_bytes (bzs : list bytes) : option modproof :=
  if negb (non_empty_multi bzs (Some mod_parts)) then None else
  let bis := map (fun b => Some (of_be b)) bzs in
  Some {| mp_W := nth 0 bis None; mp_X := firstn mod_iters (skipn 1 bis); mp_A := nth (mod_iters + 1) bis None;
          mp_B := nth (mod_iters + 2) bis None; mp_Z := firstn mod_iters (skipn (mod_iters + 3) bis) |}.

(** ** Blum primes: p = 3 mod 4 *)
Section Blum.
  Variable p : Z.
  Hypothesis P : prime p.
  Hypothesis P4 : p mod 4 = 3.
  Notation e := ((p - 1) / 2).
  Lemma blum_pos : 3 <= p. Proof. pose proof (prime_ge_2 _ P). lia. Qed.
  Lemma unit_iff a : Z.gcd a p = 1 <-> ~ (p | a).
  Proof.
    split.
    - intros G D. pose proof (Z.gcd_greatest a p p D (Z.divide_refl p)) as K. rewrite G in K. apply Z.divide_1_r in K. pose proof blum_pos. lia.
    - intro D. apply Zgcd_1_rel_prime, rel_prime_sym, prime_rel_prime; assumption.
  Qed.
  Lemma sqrt_one x : cong p (x * x) 1 -> cong p x 1 \/ cong p x (-1).
  Proof.
    intros [k Hk]. assert (D : (p | (x - 1) * (x + 1))) by (exists k; lia). destruct (prime_mult _ P _ _ D) as [[j Hj]|[j Hj]].
    - left. exists j. lia.
    - right. exists j. lia.
  Qed.
  Lemma half_pow a : Z.gcd a p = 1 -> cong p (a ^ e) 1 \/ cong p (a ^ e) (-1).
  Proof.
    intro G. apply sqrt_one. rewrite <- Z.pow_add_r by (pose proof blum_pos; lia). replace (e + e) with (p - 1) by lia. now apply fermat.
  Qed.
  Lemma one_not_m1 : ~ cong p 1 (-1).
  Proof. intros [k Hk]. pose proof blum_pos. assert (k = 0 \/ k <> 0) by lia. nia. Qed.
  Lemma euler_1 a : Z.gcd a p = 1 -> legendre a p = 1 <-> cong p (a ^ e) 1.
  Proof.
    intro G. pose proof blum_pos. rewrite legendre_1 by lia. split.
    - intros [_ [x Hx]]. transitivity ((x * x) ^ e); [apply cong_pow; now symmetry|].
      rewrite Z.pow_mul_l, <- Z.pow_add_r by lia. replace (e + e) with (p - 1) by lia. apply fermat; [assumption|].
      apply unit_iff. intro D. apply (proj1 (unit_iff a) G). apply cong_0 in D. apply cong_0.
      rewrite <- Hx, D. reflexivity.
    - intro E. split; [now apply unit_iff|]. exists (a ^ ((p + 1) / 4)). rewrite <- Z.pow_add_r by lia.
      replace ((p + 1) / 4 + (p + 1) / 4) with (e + 1) by lia. rewrite Z.pow_add_r, Z.pow_1_r by lia. rewrite E. now rewrite Z.mul_1_l.
  Qed.
  Lemma euler_m1 a : Z.gcd a p = 1 -> legendre a p = -1 <-> cong p (a ^ e) (-1).
  Proof.
    intro G. pose proof blum_pos. pose proof (euler_1 a G) as E1. pose proof (half_pow a G) as Hp. split.
    - intro L. destruct Hp as [K|K]; [apply E1 in K; lia|assumption].
    - intro K. destruct (legendre_val a p) as [V|[V|V]]; [|apply E1 in V; exfalso; apply one_not_m1; rewrite <- V; exact K|assumption].
      apply legendre_0 in V; [|lia]. apply unit_iff in G. contradiction.
  Qed.
  Lemma legendre_pm a : Z.gcd a p = 1 -> legendre a p = 1 \/ legendre a p = -1.
  Proof. intro G. destruct (legendre_val a p) as [V|V]; [|exact V]. pose proof blum_pos. apply legendre_0 in V; [|lia]. apply unit_iff in G. contradiction. Qed.
  Lemma legendre_mul a b : Z.gcd a p = 1 -> Z.gcd b p = 1 -> legendre (a * b) p = legendre a p * legendre b p.
  Proof.
    intros Ga Gb. assert (G : Z.gcd (a * b) p = 1) by now apply gcd_mul_1.
    destruct (legendre_pm a Ga) as [La|La]; destruct (legendre_pm b Gb) as [Lb|Lb]; rewrite La, Lb;
      first [apply euler_1 in La; [|assumption] | apply euler_m1 in La; [|assumption]];
      first [apply euler_1 in Lb; [|assumption] | apply euler_m1 in Lb; [|assumption]];
      first [apply (proj2 (euler_1 _ G)) | apply (proj2 (euler_m1 _ G))]; rewrite Z.pow_mul_l, La, Lb; reflexivity.
  Qed.
  Lemma legendre_neg1 : legendre (-1) p = -1.
  Proof.
    apply euler_m1; [apply Z.gcd_1_l|]. pose proof blum_pos. replace e with (2 * ((p - 3) / 4) + 1) by lia.
    rewrite Z.pow_add_r, Z.pow_mul_r by lia. change ((-1) ^ 2) with 1. rewrite Z.pow_1_l by lia. reflexivity.
  Qed.
  Lemma legendre_cong a b : cong p a b -> legendre a p = legendre b p.
  Proof. intro E. pose proof blum_pos. apply cong_eq in E; [|lia]. unfold legendre. now rewrite E. Qed.
  Lemma jac_prime a : 0 <= a -> jac a p = Ret (legendre a p).
  Proof.
    intro Ha. pose proof blum_pos. unfold jac. replace (Z.even p) with false.
    - destruct (Z.ltb_spec p 0); [lia|]. cbn [andb]. unfold jacobi_pos. rewrite Z.abs_eq by lia. rewrite factors_prime by assumption. cbn [fold_right]. f_equal. lia.
    - destruct (Z.even p) eqn:E; [|reflexivity]. apply Z.even_spec in E. destruct E as [k ->]. lia.
  Qed.
End Blum.

Lemma cong_crt p q a b : rel_prime p q -> cong p a b -> cong q a b -> cong (p * q) a b.
Proof.
  intros R [x Hx] [y Hy]. unfold cong.
  assert (D : (p | q * y)) by (exists x; lia). apply Gauss in D; [|assumption].
  destruct D as [k Hk]. exists k. rewrite Hy, Hk. ring.
Qed.
