(** Conc.v -- several goroutines calling the exported API (eddsa.go) at the same time.  The registries are plain Go maps
    without a lock (keygen/local_party.go 67, onsign/local_party.go 77), so a call is split where another goroutine can come in:
    the lookup in the map, the work on the session it returned, the insertion by New (keygen/local_party.go 121,
    onsign/local_party.go 208) and the deletion by Remove (keygen/local_party.go 162, onsign/local_party.go 217).
    Go's maps detect a conflict: an access that starts while another goroutine is writing ends the process ("concurrent map
    writes", "concurrent map read and map write"); a lookup in an empty map returns before that check.
    Simplifications: the work on one session is one step (two goroutines inside one session race on its fields; the discipline
    below excludes that); a writer that starts during a lookup does no harm to the lookup; the unsynchronised store of the
    constant curve (tss.SetCurve, keygen/local_party.go 82) is left out. *)
From Verif Require Import Base BigInt Text Wire Messages PartyID Curve Save Keygen KeygenAdv RangeProofs Ckd Onsign OnsignHist PropSign Api PropApi.

(** where a goroutine is inside a call *)
Inductive phase :=
| Idle
| Look (o : api)                               (* looking the key up *)
| Work (o : api) (id : nat)                    (* working on the session found *)
| NewW (o : api) (r : reply) (x : session)     (* inserting a finished party *)
| DelW (o : api).                              (* deleting *)
Record thread := { t_ph : phase; t_prog : list api }.
(** the maps hold pointers: positions in the heap of sessions.  The log lists the calls that returned *)
Record cstate := { c_kg : gmap nat; c_sg : gmap nat; c_heap : list session; c_thr : list thread; c_log : list (nat * (api * reply)) }.
Definition c_reg (b : bool) (s : cstate) : gmap nat := if b then c_sg s else c_kg s.
Definition with_reg (b : bool) (m : gmap nat) (s : cstate) : cstate :=
  {| c_kg := (if b then c_kg s else m); c_sg := (if b then m else c_sg s); c_heap := c_heap s; c_thr := c_thr s; c_log := c_log s |}.
Definition with_thr (i : nat) (ph : phase) (l : list api) (s : cstate) : cstate :=
  {| c_kg := c_kg s; c_sg := c_sg s; c_heap := c_heap s; c_thr := upd i {| t_ph := ph; t_prog := l |} (c_thr s); c_log := c_log s |}.
Definition with_heap (h : list session) (s : cstate) : cstate :=
  {| c_kg := c_kg s; c_sg := c_sg s; c_heap := h; c_thr := c_thr s; c_log := c_log s |}.
(** goroutine i returns from call o with reply r *)
Definition return_ (i : nat) (o : api) (r : reply) (l : list api) (s : cstate) : cstate :=
  let s := with_thr i Idle l s in
  {| c_kg := c_kg s; c_sg := c_sg s; c_heap := c_heap s; c_thr := c_thr s; c_log := c_log s ++ [(i, (o, r))] |}.
(** the hashWriting flag of the map of registry b *)
Definition writes (b : bool) (t : thread) : bool :=
  match t_ph t with NewW o _ _ | DelW o => Bool.eqb (fst (target o)) b | _ => false end.
Definition writing (b : bool) (s : cstate) : bool := existsb (writes b) (c_thr s).

Section Conc.
  Variables (C : curve) (D : edlib) (H B S5 : bytes -> bytes) (HM : bytes -> bytes -> bytes) (spare : bytes -> bytes).

  (** the constructors up to the insertion: keygen/local_party.go 70-120, onsign/local_party.go 76-207 *)
  Definition build (o : api) : outcome (reply * option session) :=
    match o with
    | ANewK key i n pids root => let! (r, p) := kg_new i n (split comma pids) root in Ret (RRes r, option_map SessK p)
    | ANewS key i n pids msg kd rf path => let! (r, p) := sg_new C HM spare i n (split comma pids) msg kd rf path in Ret (RRes r, option_map SessS p)
    | _ => Ret (RBool false, None)
    end.
  (** a round call on the session found; the last case never arises *)
  Definition body (o : api) (x : session) : outcome (reply * session) :=
    match o, x with
    | AK key k, SessK p => let! (r, p') := kop_run C H k p in Ret (RRes r, SessK p')
    | AS key k, SessS p => let! (r, p') := sop_run C D B S5 k p in Ret (RRes r, SessS p')
    | _, _ => Ret (RRes (fail ENotFound), x)
    end.

  (** one step of goroutine i; [Panic] is the end of the process *)
  Definition cstep (i : nat) (s : cstate) : outcome cstate :=
    match nth_error (c_thr s) i with
    | None => Ret s
    | Some t =>
      match t_ph t with
      | Idle =>
        match t_prog t with
        | [] => Ret s
        | o :: l =>
          if is_new o then
            let! (r, x) := build o in
            match x with
            | None => Ret (return_ i o r l s)
            | Some x => if writing (fst (target o)) s then Panic else Ret (with_thr i (NewW o r x) l s)
            end
          else if negb (length (c_reg (fst (target o)) s) =? 0)%nat && writing (fst (target o)) s then Panic
          else Ret (with_thr i (Look o) l s)
        end
      | Look o =>
        match mget (snd (target o)) (c_reg (fst (target o)) s) with
        | None => Ret (return_ i o (if is_remove o then RBool false else RRes (fail ENotFound)) (t_prog t) s)
        | Some id =>
          if is_remove o then if writing (fst (target o)) s then Panic else Ret (with_thr i (DelW o) (t_prog t) s)
          else Ret (with_thr i (Work o id) (t_prog t) s)
        end
      | Work o id =>
        match nth_error (c_heap s) id with
        | None => Panic
        | Some x => let! (r, x') := body o x in Ret (return_ i o r (t_prog t) (with_heap (upd id x' (c_heap s)) s))
        end
      | NewW o r x =>
        Ret (return_ i o r (t_prog t)
          (with_heap (c_heap s ++ [x]) (with_reg (fst (target o)) (mput (snd (target o)) (length (c_heap s)) (c_reg (fst (target o)) s)) s)))
      | DelW o => Ret (return_ i o (RBool true) (t_prog t) (with_reg (fst (target o)) (mdel (snd (target o)) (c_reg (fst (target o)) s)) s))
      end
    end.
  (** a schedule: which goroutine takes the next step *)
  Fixpoint csched (l : list nat) (s : cstate) : outcome cstate :=
    match l with [] => Ret s | i :: l => let! s' := cstep i s in csched l s' end.
End Conc.
