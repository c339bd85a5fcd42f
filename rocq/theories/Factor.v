(** Factor.v -- crypto/alice/zkproof/integerfactorization.go: the proof that the factorisation of a Paillier modulus is known. *)
From Verif Require Import Base BigInt NumTh Euler Carmichael RangeProofs RangeThm AliceUtils Jacobi.
From Coq Require Import Znumtheory.

(** IntegerFactorizationProofMessage *)
Record fzmsg := { fz_salt : bytes; fz_N : bytes; fz_x : bytes; fz_y : bytes }.
(** integerfactorization.go 33 maxRetry *)
Definition fz_retry : nat := 100.

Section Fz.
  Variable B : bytes -> bytes.   (* blake2b-256 *)
  (** integerfactorization.go 171-187 generateZ with index = 1: the candidate is recomputed from the same input in every pass.
      The inner loop leaves the last candidate in [result] whether or not it is in range *)
  Definition gz_cand (N index : Z) : Z := ext_hash B (to_be index) (to_be N) (bitlen N).
  Fixpoint gz_inner (fuel : nat) (N index result : Z) : Z :=
    match fuel with O => result | S f => let r := gz_cand N index in if in_range r 2 (N - 1) then r else gz_inner f N index r end.
  Fixpoint gz_outer (fuel inner : nat) (N index result : Z) : option Z :=
    match fuel with
    | O => None
    | S f => let r := gz_inner inner N index result in if rel_primeb r N then Some r else gz_outer f inner N index r
    end.
  Definition generate_z (N : Z) : option Z := gz_outer fz_retry fz_retry N 1 0.

  (** integerfactorization.go 97-101, 152-157 *)
  Definition fz_e (salt : bytes) (x z N : Z) : Z := of_be (hash_protos B salt [to_be x; to_be z; to_be N]) mod 2 ^ 80.
  (** integerfactorization.go 128-169 Verify; Exp with a negative exponent and a unit base is the inverse power *)
  Definition fz_verify (m : fzmsg) : bool :=
    let N := of_be (fz_N m) in
    let x := of_be (fz_x m) in
    if negb (in_range x 1 N) then false else
    let y := of_be (fz_y m) in
    if negb (in_range y 0 (N - 1)) then false else
    match generate_z N with
    | None => false
    | Some z => let e := fz_e (fz_salt m) x z N in
                match expm z (y - N * e) N with Some v => v =? x | None => false end
    end.
  (** utils.go 240-257 HashProtosRejectSampling over the salts drawn (at most 100) *)
  Fixpoint reject_loop (order : Z) (parts : list bytes) (salts : list bytes) : option (Z * bytes) :=
    match salts with
    | [] => None
    | s :: t => let c := of_be (hash_protos B s parts) in if in_range c 0 order then Some (c, s) else reject_loop order parts t
    end.
  (** integerfactorization.go 92-117: the message of one attempt *)
  Definition fz_msg (N phi r z e : Z) (salt : bytes) : fzmsg :=
    {| fz_salt := salt; fz_N := to_be N; fz_x := to_be (z ^ r mod N); fz_y := to_be (r + (N - phi) * e) |}.
  (** integerfactorization.go 77-125: the attempts, each with its drawn r and salts; None is an error return *)
  Fixpoint fz_loop (factors : list Z) (N : Z) (tries : list (Z * list bytes)) : option fzmsg :=
    match tries with
    | [] => None
    | (r, salts) :: t =>
      match generate_z N with
      | None => None
      | Some z =>
        match reject_loop (2 ^ 256) [to_be (z ^ r mod N); to_be z; to_be N] (firstn 100 salts) with
        | None => None
        | Some (c, salt) =>
          match euler_function factors with
          | None => None
          | Some phi => let m := fz_msg N phi r z (c mod 2 ^ 80) salt in if fz_verify m then Some m else fz_loop factors N t
          end
        end
      end
    end.
  (** integerfactorization.go 72-126 NewIntegerFactorizationProofMessage; safePubKeySize = 2048 *)
  Definition fz_new (factors : list Z) (N : Z) (tries : list (Z * list bytes)) : option fzmsg :=
    if bitlen N <? 2048 then None else fz_loop factors N (firstn fz_retry tries).
End Fz.

(** ** Euler's theorem for a product of distinct primes *)
Definition phi_list (l : list Z) : Z := fold_right (fun p a => (p - 1) * a) 1 l.
Lemma phi_list_pos l : Forall prime l -> 0 < phi_list l.
Proof. intro F. induction F as [|p l P _ IH]; [cbn; lia|]. cbn [phi_list fold_right]. fold (phi_list l). pose proof (prime_ge_2 _ P). nia. Qed.
Lemma lprod_pos l : Forall prime l -> 0 < lprod l.
Proof. intro F. induction F as [|p l P _ IH]; [cbn; lia|]. cbn [lprod fold_right]. fold (lprod l). pose proof (prime_ge_2 _ P). nia. Qed.
Lemma lprod_rel p l : prime p -> Forall prime l -> ~ In p l -> rel_prime p (lprod l).
Proof.
  intros P F N. induction F as [|q l Q _ IH]; [cbn; apply rel_prime_sym, rel_prime_1|]. cbn [lprod fold_right]. fold (lprod l).
  apply rel_prime_mult; [apply primes_rel; [exact P|exact Q|]; intro E; apply N; now left|apply IH; intro I; apply N; now right].
Qed.
Lemma euler_list l a : Forall prime l -> NoDup l -> Z.gcd a (lprod l) = 1 -> cong (lprod l) (a ^ phi_list l) 1.
Proof.
  intro F. induction F as [|p l P F IH]; intros ND G; [exists (a ^ phi_list [] - 1); cbn [lprod fold_right]; lia|].
  inversion ND as [|? ? N ND']; subst. cbn [lprod phi_list fold_right] in *. fold (lprod l) in *. fold (phi_list l) in *.
  pose proof (phi_list_pos l F) as PP. pose proof (prime_ge_2 _ P). apply cong_crt; [now apply lprod_rel| |].
  - apply (pow_one_mult p a (p - 1)); [lia|nia|exists (phi_list l); ring|]. apply fermat; [exact P|now apply (gcd_factor_l a p (lprod l))].
  - apply (pow_one_mult (lprod l) a (phi_list l)); [lia|nia|exists (p - 1); ring|]. apply IH; [exact ND'|now apply (gcd_factor_r a p (lprod l))].
Qed.
Lemma phi_list_lt l : Forall prime l -> l <> [] -> phi_list l < lprod l.
Proof.
  intro F. induction F as [|p l P F IH]; intro N; [congruence|]. cbn [lprod phi_list fold_right]. fold (lprod l). fold (phi_list l). pose proof (prime_ge_2 _ P).
  destruct l as [|q l]; [cbn; lia|]. specialize (IH ltac:(discriminate)). pose proof (phi_list_pos _ F). nia.
Qed.
