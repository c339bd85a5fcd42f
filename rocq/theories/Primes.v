(** Primes.v -- crypto/alice/utils/prime.go and the per-candidate functions of common/safe_prime.go.

    The random source is a finite list of bytes as in Random.v; ProbablyPrime is the argument [pp]. *)
From Verif Require Import Base BigInt NumTh Euler RangeProofs Random Jacobi.
From Coq Require Import Znumtheory.

(** prime.go 24 *)
Definition prime3_product : Z := 16294579238595022365.
(** prime.go 26-96 *)
Definition prime_table : list (list Z) :=
  [[5; 7; 11; 13; 17; 19; 23; 29; 31; 37; 41; 43; 47; 53];
   [59; 61; 67; 71; 73; 79; 83; 89; 97];
   [101; 103; 107; 109; 113; 127; 131; 137; 139];
   [149; 151; 157; 163; 167; 173; 179; 181];
   [191; 193; 197; 199; 211; 223; 227; 229];
   [233; 239; 241; 251; 257; 263; 269];
   [271; 277; 281; 283; 293; 307; 311];
   [317; 331; 337; 347; 349; 353; 359];
   [367; 373; 379; 383; 389; 397; 401];
   [409; 419; 421; 431; 433; 439; 443];
   [449; 457; 461; 463; 467; 479; 487];
   [491; 499; 503; 509; 521; 523; 541];
   [557; 563; 569; 571; 577; 587];
   [593; 599; 601; 607; 613; 617];
   [619; 631; 641; 643; 647; 653];
   [659; 661; 673; 677; 683; 691];
   [701; 709; 719; 727; 733; 739];
   [743; 751; 757; 761; 769; 773];
   [787; 797; 809; 811; 821; 823];
   [827; 829; 839; 853; 857; 859];
   [863; 877; 881; 883; 887; 907];
   [911; 919; 929; 937; 941; 947];
   [953; 967; 971; 977; 983; 991]].
(** prime.go 98-122 *)
Definition prime_products : list Z :=
  [5431526412865007455;
   6437928885641249269;
   4343678784233766587;
   538945254996352681;
   3534749459194562711;
   61247129307885343;
   166996819598798201;
   542676746453092519;
   1230544604996048471;
   2618501576975440661;
   4771180125133726009;
   9247077179230889629;
   34508483876655991;
   49010633640532829;
   68015277240951437;
   93667592535644987;
   140726526226538479;
   191079950785756457;
   278064420037666463;
   361197734649700343;
   473672212426732757;
   649424689916978839;
   851648411420003101].

(** prime.go 227-247 FastMod3: the two counting loops (i < BitLen, step 2) and the final case split *)
Fixpoint count_bits (fuel : nat) (i bl n : Z) : Z :=
  match fuel with
  | O => 0
  | S f => if i <? bl then (if Z.testbit n i then 1 else 0) + count_bits f (i + 2) bl n else 0
  end.
Definition fast_mod3 (n : Z) : Z :=
  let bl := bitlen n in
  let one := count_bits (Z.to_nat bl) 0 bl n in
  let two := count_bits (Z.to_nat bl) 1 bl n in
  (if two <? one then one - two else 2 * (two - one)) mod 3.

(** prime.go 211-224 checkSafePrimes (all values fit in uint64) *)
Definition check_safe (m product : Z) (ps : list Z) : bool :=
  let mm := m mod product in forallb (fun p => negb (mm mod p =? 0) && negb (mm mod p =? p / 2)) ps.
(** prime.go 251-254 checkPrimeByPocklingtonCriterion *)
Definition pocklington (p1 p : Z) : bool := match expm 2 p1 p with Some r => r =? 1 | None => false end.

(** prime.go 150-170: clear the bits above the size, set the two top bits and the lowest one (bits >= 2) *)
Definition set_last (bs : bytes) : bytes :=
  match rev bs with [] => [] | x :: t => rev (zb (Z.lor (bz x) 1) :: t) end.
Definition shape (bits : Z) (bs : bytes) : bytes :=
  let b := top_bits bits in
  set_last (match bs with
  | [] => []
  | x :: t => let x := Z.land (bz x) (2 ^ b - 1) in
              if 2 <=? b then zb (Z.lor x (3 * 2 ^ (b - 2))) :: t
              else zb (Z.lor x 1) :: match t with [] => [] | y :: t => zb (Z.lor (bz y) 128) :: t end
  end).

(** prime.go 177-184: q is moved to 2 modulo 3 *)
Definition adjust3 (q : Z) : Z :=
  let m := fast_mod3 (q mod prime3_product) in if m =? 1 then q + 4 else if m =? 0 then q + 2 else q.

Section Gen.
  Variable pp : Z -> bool.
  (** prime.go 187-206: one candidate *)
  Definition accept (pbits Q : Z) : bool :=
    forallb (fun t => check_safe Q (fst t) (snd t)) (combine prime_products prime_table) &&
    pocklington (2 * Q) (2 * Q + 1) && (bitlen (2 * Q + 1) =? pbits) && pp Q.
  (** delta = 0, 6, ..., 1020 *)
  Definition deltas : list Z := map (fun i => 6 * Z.of_nat i) (seq 0 171).
  Definition try_deltas (pbits q : Z) : option Z := find (accept pbits) (map (Z.add q) deltas).
  (** prime.go 134-209 GenerateRandomSafePrime: None is an error return (size, or the reader ran dry) *)
  Fixpoint gen_loop (fuel : nat) (pbits : Z) (s : bytes) : option (Z * Z * bytes) :=
    match fuel with
    | O => None
    | S f =>
      match read_full (Z.to_nat ((pbits - 1 + 7) / 8)) s with
      | None => None
      | Some (bs, s') =>
        match try_deltas pbits (adjust3 (of_be (shape (pbits - 1) bs))) with
        | Some Q => Some (2 * Q + 1, Q, s')
        | None => gen_loop f pbits s'
        end
      end
    end.
  Definition generate (pbits : Z) (s : bytes) : option (Z * Z * bytes) :=
    if pbits <? 3 then None else gen_loop (S (length s)) pbits s.
End Gen.

(** common/safe_prime.go 107-109, 115 *)
Definition small_primes : list Z := [3; 5; 7; 11; 13; 17; 19; 23; 29; 31; 37; 41; 43; 47; 53].
Definition small_product : Z := 16294579238595022365.
(** safe_prime.go 346-355 isPrimeCandidate, for a non-negative number *)
Definition is_candidate (n : Z) : bool :=
  let m := n mod small_product in forallb (fun p => negb ((m mod p =? 0) && negb (m =? p))) small_primes.
(** safe_prime.go 338-344; the modulus 0 of a never-assigned p gives the result 1 *)
Definition pock_p (p : Z) : bool := if p =? 0 then true else pocklington (p - 1) p.
(** safe_prime.go 43-60 Validate: a nil q is refused, a nil p with a prime q panics *)
Definition validate (pp : Z -> bool) (q p : option Z) : outcome bool :=
  match q with
  | None => Ret false
  | Some q => if pp q then match p with None => Panic | Some p => Ret ((2 * q + 1 =? p) && pp p) end else Ret false
  end.

(** ** residues modulo 3 *)
Lemma count_shift f i bl n : 0 <= i -> 0 <= n -> count_bits f (i + 2) bl n = count_bits f i (bl - 2) (n / 4).
Proof.
  revert i. induction f as [|f IH]; intros i Hi Hn; [reflexivity|]. cbn [count_bits].
  replace (i <? bl - 2) with (i + 2 <? bl) by lia. destruct (i + 2 <? bl); [|reflexivity].
  replace (Z.testbit n (i + 2)) with (Z.testbit (n / 4) i) by (change 4 with (2 ^ 2); rewrite Z.div_pow2_bits by lia; reflexivity).
  rewrite IH by lia. reflexivity.
Qed.
Lemma low_bits n : n mod 4 = (if Z.testbit n 0 then 1 else 0) + 2 * (if Z.testbit n 1 then 1 else 0).
Proof.
  pose proof (Z.testbit_spec' n 0 ltac:(lia)) as A. pose proof (Z.testbit_spec' n 1 ltac:(lia)) as B.
  change (2 ^ 0) with 1 in A. change (2 ^ 1) with 2 in B. rewrite Z.div_1_r in A.
  destruct (Z.testbit n 0), (Z.testbit n 1); cbn [Z.b2z] in A, B; lia.
Qed.
