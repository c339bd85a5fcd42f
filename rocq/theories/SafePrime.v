(** SafePrime.v -- common/safe_prime.go: the search goroutine (runGenPrimeRoutine) and the collector (GetRandomSafePrimesConcurrent). *)
From Verif Require Import Base BigInt NumTh Euler RangeProofs Random Jacobi Primes.
From Coq Require Import Znumtheory.

(** ** one search goroutine *)
Section Search.
  (** ProbablyPrime(20) of the search and ProbablyPrime(30) of Validate *)
  Variables pp20 pp30 : Z -> bool.
  (** safe_prime.go 277-282: the residue of q0 + delta against the small primes (no uint64 overflow: the residue is below small_product) *)
  Definition delta_ok (qbl md delta : Z) : bool :=
    forallb (fun r => negb (((md + delta) mod r =? 0) && ((6 <? qbl) || negb (md + delta =? r)))) small_primes.
  (** safe_prime.go 275-315: the NextDelta loop from [delta] on; q is incremented by every delta that passes the residue test,
      on top of the earlier ones; p keeps its old value until a q reaches line 308 *)
  Fixpoint delta_loop (fuel : nat) (qbl md delta p q : Z) : Z * Z :=
    match fuel with
    | O => (p, q)
    | S f =>
      if delta_ok qbl md delta then
        let q := q + delta in
        if q mod 3 =? 1 then delta_loop f qbl md (delta + 2) p q
        else let p := 2 * q + 1 in
             if is_candidate p then (p, q) else delta_loop f qbl md (delta + 2) p q
      else delta_loop f qbl md (delta + 2) p q
    end.
  (** safe_prime.go 234-330: one pass of the outer loop on the bytes read. Left: p, q kept for the next pass (q is overwritten there);
      right: the pair sent, if any. p and q are fresh zeros after the final test, so a sent pair is never written to again *)
  Definition search_pass (pbl : Z) (p : Z) (bs : bytes) : Z * option (Z * Z) :=
    let qbl := pbl - 1 in
    let q0 := of_be (shape qbl bs) in
    let '(p, q) := delta_loop (Z.to_nat (2 ^ 19)) qbl (q0 mod small_product) 0 p q0 in
    if pp20 q && pock_p p && (bitlen q =? qbl) then
      (0, if pp30 q && (2 * q + 1 =? p) && pp30 p then Some (p, q) else None)
    else (p, None).
  (** the pairs sent by one goroutine while it reads the stream (which then fails: line 241) *)
  Fixpoint search (fuel : nat) (pbl p : Z) (s : bytes) : list (Z * Z) :=
    match fuel with
    | O => []
    | S f =>
      match read_full (Z.to_nat ((pbl - 1 + 7) / 8)) s with
      | None => []
      | Some (bs, s') => let '(p, o) := search_pass pbl p bs in
                         match o with Some x => x :: search f pbl p s' | None => search f pbl p s' end
      end
    end.
End Search.

(** ** the collector
    Goroutine steps are separated where another goroutine can interleave. A worker is at the top of its loop, inside a pass,
    blocked on or about to perform a send on primeCh, about to send its error, or finished. [A] is the type of pairs. *)
Section Collect.
  Context {A : Type}.
  Inductive worker := WTop | WPass | WSend (x : A) | WErr | WDone.
  Inductive result := ROk (l : list A) | RErr | RCancelled.
  (** main: collecting, about to run its defers (cancel first), in waitGroup.Wait, returned (channels closed) *)
  Inductive mainst := MCollect (got : list A) | MReturning (r : result) | MWaiting (r : result) | MDone (r : result).
  Record cstate := CState { cs_buf : list A; cs_errs : nat; cs_ws : list worker; cs_main : mainst; cs_ctx : bool; cs_gctx : bool }.

  (** safe_prime.go 132-160 (sizes below 6 bits and numPrimes < 1 are refused, a negative concurrency panics in make): primeCh has capacity concurrency * numPrimes, errCh has capacity concurrency *)
  Definition c_init (c : nat) : cstate := CState [] 0 (repeat WTop c) (MCollect []) false false.

  Variables (n c : nat) (found : A -> Prop).   (** numPrimes, concurrency, the pairs a search pass can send *)
  Definition set_w (s : cstate) (i : nat) (w : worker) : cstate :=
    CState (cs_buf s) (cs_errs s) (upd i w (cs_ws s)) (cs_main s) (cs_ctx s) (cs_gctx s).
  Definition set_main (s : cstate) (m : mainst) : cstate := CState (cs_buf s) (cs_errs s) (cs_ws s) m (cs_ctx s) (cs_gctx s).
  Inductive cstep : cstate -> cstate -> Prop :=
    (* 236-237: the context is done *)
  | S_stop s i : nth_error (cs_ws s) i = Some WTop -> cs_gctx s = true -> cstep s (set_w s i WDone)
    (* 238: default branch *)
  | S_begin s i : nth_error (cs_ws s) i = Some WTop -> cs_gctx s = false -> cstep s (set_w s i WPass)
    (* a pass that sends nothing, one that found a pair, one whose read failed *)
  | S_none s i : nth_error (cs_ws s) i = Some WPass -> cstep s (set_w s i WTop)
  | S_found s i x : nth_error (cs_ws s) i = Some WPass -> found x -> cstep s (set_w s i (WSend x))
  | S_fail s i : nth_error (cs_ws s) i = Some WPass -> cstep s (set_w s i WErr)
    (* 325: primeCh <- pair, when the buffer has room *)
  | S_send s i x : nth_error (cs_ws s) i = Some (WSend x) -> (length (cs_buf s) < c * n)%nat ->
      cstep s (CState (cs_buf s ++ [x]) (cs_errs s) (upd i WTop (cs_ws s)) (cs_main s) (cs_ctx s) (cs_gctx s))
    (* 241-242: errCh <- err; return *)
  | S_err s i : nth_error (cs_ws s) i = Some WErr -> (cs_errs s < c)%nat ->
      cstep s (CState (cs_buf s) (S (cs_errs s)) (upd i WDone (cs_ws s)) (cs_main s) (cs_ctx s) (cs_gctx s))
    (* 163-167 *)
  | S_take s x rest got : cs_main s = MCollect got -> cs_buf s = x :: rest ->
      cstep s (CState rest (cs_errs s) (cs_ws s) (if Nat.leb n (length got + 1) then MReturning (ROk (firstn n (got ++ [x]))) else MCollect (got ++ [x])) (cs_ctx s) (cs_gctx s))
    (* 168-171 *)
  | S_takeerr s k got : cs_main s = MCollect got -> cs_errs s = S k ->
      cstep s (CState (cs_buf s) k (cs_ws s) (MReturning RErr) (cs_ctx s) (cs_gctx s))
  | S_cancelled s got : cs_main s = MCollect got -> cs_ctx s = true -> cstep s (set_main s (MReturning RCancelled))
    (* deferred cancelGeneratorCtx *)
  | S_cancel s r : cs_main s = MReturning r -> cstep s (CState (cs_buf s) (cs_errs s) (cs_ws s) (MWaiting r) (cs_ctx s) true)
    (* deferred waitGroup.Wait, then the channels are closed *)
  | S_wait s r : cs_main s = MWaiting r -> Forall (eq WDone) (cs_ws s) -> cstep s (set_main s (MDone r))
    (* the caller's context is cancelled or times out *)
  | S_ctx s : cstep s (CState (cs_buf s) (cs_errs s) (cs_ws s) (cs_main s) true true).

  Inductive creach : cstate -> cstate -> Prop :=
  | CR_refl s : creach s s
  | CR_step s t u : creach s t -> cstep t u -> creach s u.
End Collect.
Arguments worker : clear implicits.
Arguments result : clear implicits.
Arguments mainst : clear implicits.
Arguments cstate : clear implicits.
