(** Gmr.v -- crypto/paillier/paillier.go 196-294: the Gennaro-Micciancio-Rabin proof that a Paillier modulus is well formed. *)
From Verif Require Import Base BigInt HashFrame Text NumTh Paillier RangeProofs Random Jacobi.
From Coq Require Import Znumtheory.

(** paillier.go 36 ProofIters *)
Definition proof_iters : nat := 13.
(** paillier.go 37 and 215: primes.Until(1000), a list from github.com/otiai10/primes; modelled as the primes up to 1000 by trial division *)
Definition prime_upto_1000 (n : Z) : bool := forallb (fun d => negb (n mod d =? 0) || (d =? n)) (zseq 2 31).
Definition until_1000 : list Z := filter prime_upto_1000 (zseq 2 1000).

Section Gmr.
  (** SHA-512/256 *)
  Variable H : bytes -> bytes.
  (** paillier.go 264: blocks = ceil(N.BitLen() / 256) *)
  Definition gx_blocks (N : Z) : Z := (bitlen N + 255) / 256.
  (** paillier.go 269-286: the candidate for challenge i with rejection counter n. One goroutine per block hashes and sends on its own channel;
      the channels are read in order, so the result does not depend on the scheduling *)
  Definition gx_candidate (k N X Y : Z) (i n : Z) : Z :=
    of_be (concat (map (fun j => H (frame [itoa i; itoa j; itoa n; to_be k; to_be X; to_be Y; to_be N])) (zseq 0 (gx_blocks N - 1)))).
  (** paillier.go 268-293 GenerateXs: [todo] challenges are still to be found, the counter n is never reset; [None]: not finished within the fuel *)
  Fixpoint gx_loop (fuel : nat) (k N X Y : Z) (i n : Z) (todo : nat) : option (list Z) :=
    match todo with
    | O => Some []
    | S t =>
      match fuel with
      | O => None
      | S f =>
        let x := gx_candidate k N X Y i n in
        if in_group (Some N) (Some x) then match gx_loop f k N X Y (i + 1) n t with Some l => Some (x :: l) | None => None end
        else gx_loop f k N X Y i (n + 1) todo
      end
    end.
  Definition generate_xs (fuel m : nat) (k N X Y : Z) : option (list Z) := gx_loop fuel k N X Y 0 0 m.

  (** paillier.go 200-209 Proof: a missing inverse is a nil exponent, Exp panics on it; outer [None]: out of fuel *)
  Definition gmr_proof (fuel : nat) (sk : pkey) (k X Y : Z) : option (outcome (list Z)) :=
    match generate_xs fuel proof_iters k (pk_n sk) X Y with
    | None => None
    | Some xs => Some (match invm (pk_n sk) (pk_phi sk) with
                       | None => Panic
                       | Some M => Ret (map (fun x => powm x M (pk_n sk)) xs)
                       end)
    end.
  (** paillier.go 216-225: the divisibility goroutine. Mod by a prime never panics *)
  Definition gmr_no_small_factor (N : Z) : bool := forallb (fun p => negb (N mod p =? 0)) until_1000.
  (** paillier.go 236-244: the comparison loop over the challenges; a nil entry of the proof array panics in Exp.
      Exp(y, N, N) for N > 0 -- the only case in which the challenges exist *)
  Fixpoint gmr_check (N : Z) (xs : list Z) (pf : list (option Z)) : outcome bool :=
    match xs, pf with
    | [], _ => Ret true
    | x :: xs', Some y :: pf' => if x mod N =? powm y N N then gmr_check N xs' pf' else Ret false
    | _ :: _, _ => Panic
    end.
  (** paillier.go 211-248 Verify: the two goroutines may deliver in either order ([pch_first]). The outer [None] is "has not returned yet" *)
  Definition gmr_verify (fuel : nat) (pch_first : bool) (pf : list (option Z)) (N k X Y : Z) : option (outcome bool) :=
    if pch_first then
      if gmr_no_small_factor N then match generate_xs fuel proof_iters k N X Y with None => None | Some xs => Some (gmr_check N xs pf) end
      else Some (Ret false)
    else
      match generate_xs fuel proof_iters k N X Y with
      | None => None
      | Some xs => Some (match gmr_check N xs pf with
                         | Ret true => Ret (gmr_no_small_factor N)
                         | r => r
                         end)
      end.
End Gmr.
