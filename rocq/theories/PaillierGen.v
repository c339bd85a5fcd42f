(** PaillierGen.v -- key generation of crypto/paillier/paillier.go and crypto/alice/paillier/paillier.go, message.go. *)
From Verif Require Import Base BigInt NumTh Euler Carmichael RangeProofs RangeThm AliceUtils Jacobi Paillier Factor.
From Coq Require Import Znumtheory.

(** crypto/paillier/paillier.go 70-110 GenerateKeyPair: each attempt is the pair of safe primes of one call of the concurrent search;
    a failing search ends the list (error return). The loop is unbounded in the code *)
Fixpoint gen_key (mbl : Z) (attempts : list (Z * Z)) : option pkey :=
  match attempts with
  | [] => None
  | (P, Q) :: t => if mbl / 2 - 3 <=? bitlen (P - Q) then Some (key_of P Q) else gen_key mbl t
  end.

(** alice paillier.go 242-283 generatePrime: each attempt is a pair of generated primes (safe primes or rand.Prime); equal ones are retried *)
Definition a_prime_pair (attempts : list (Z * Z)) : option (Z * Z) := find (fun a => negb (fst a =? snd a)) (firstn 100 attempts).
(** alice paillier.go 220-240 getNAndLambda: result (p, q, n, lambda, phi) *)
Fixpoint a_n_lambda (fuel : nat) (attempts : list (list (Z * Z))) : option (Z * Z * Z * Z * Z) :=
  match fuel, attempts with
  | S f, a :: t =>
    match a_prime_pair a with
    | None => None
    | Some (p, q) =>
      let n := p * q in let m := (p - 1) * (q - 1) in
      if rel_primeb n m then match u_lcm (p - 1) (q - 1) with Some l => Some (p, q, n, l, m) | None => a_n_lambda f t end
      else a_n_lambda f t
    end
  | _, _ => None
  end.

Section Gen.
  Variable B : bytes -> bytes.
  (** PubKeyMessage: the factorisation proof and g *)
  Record pubmsg := { pm_proof : fzmsg; pm_g : bytes }.
  (** alice message.go 23-50 ToPubkey: (n, g) *)
  Definition to_pubkey (m : pubmsg) : option (Z * Z) :=
    if negb (fz_verify B (pm_proof m)) then None else
    let n := of_be (fz_N (pm_proof m)) in
    let g := of_be (pm_g m) in
    if n <=? 0 then None else
    if negb (in_range g 2 (n * n)) then None else
    if negb (rel_primeb g (n * n)) then None else Some (n, g).
  (** the generated key: public n, g; private p, q, lambda, phi, mu *)
  Record akey := { ak_n : Z; ak_g : Z; ak_p : Z; ak_q : Z; ak_lambda : Z; ak_phi : Z; ak_mu : Z }.
  (** alice paillier.go 163-199 NewPaillierUnSafe, with the attempts of the prime search and of the proof *)
  Definition a_new (attempts : list (list (Z * Z))) (tries : list (Z * list bytes)) : option akey :=
    match a_n_lambda 100 attempts with
    | None => None
    | Some (p, q, n, lambda, phi) =>
      match a_g_mu lambda n with
      | None => None
      | Some (g, mu) =>
        match fz_new B [p; q] n tries with
        | None => None
        | Some msg =>
          match to_pubkey {| pm_proof := msg; pm_g := to_be g |} with
          | None => None
          | Some (n', g') => Some {| ak_n := n'; ak_g := g'; ak_p := p; ak_q := q; ak_lambda := lambda; ak_phi := phi; ak_mu := mu |}
          end
        end
      end
    end.
  (** alice paillier.go 148-160 NewPaillier / NewPaillierSafePrime: the size check *)
  Definition a_new_checked (keySize : Z) (attempts : list (list (Z * Z))) (tries : list (Z * list bytes)) : option akey :=
    if keySize <? 2048 then None else a_new attempts tries.
  (** alice paillier.go 396-402 GetNthRoot: None inside is a nil result *)
  Definition nth_root (k : akey) : option (option Z) :=
    match euler_function [ak_p k; ak_q k] with None => None | Some phi => Some (invm (ak_n k) phi) end.
End Gen.
