(** Dln.v -- crypto/dlnproof/proof.go, and its properties (C31).

    [H] is SHA-512/256.  h1, h2, N, x, p, q are non-nil.  The 128 random numbers of the prover are an argument. *)
From Coq Require Import Znumtheory.
From Verif Require Import Base BigInt HashFrame NumTh IntMod Commit.

(** proof.go 23 *)
Definition dln_iters : nat := 128.
(** proof.go 26-29: two arrays of 128 pointers *)
Record dlnproof := { dl_alpha : list (option Z); dl_t : list (option Z) }.

(** big.Int Bit(i) of a non-negative number, as 0 or 1 *)
Definition bit01 (c : Z) (i : nat) : Z := if Z.testbit c (Z.of_nat i) then 1 else 0.

(** [for i := range l { f(i, l[i]) }] building an array *)
Fixpoint omap_i {A B} (f : nat -> A -> outcome B) (i : nat) (l : list A) : outcome (list B) :=
  match l with [] => Ret [] | a :: l => let! b := f i a in let! r := omap_i f (S i) l in Ret (b :: r) end.
(** a loop that returns false at the first element failing its test *)
Fixpoint oforall_i {A} (f : nat -> A -> outcome bool) (i : nat) (l : list A) : outcome bool :=
  match l with [] => Ret true | a :: l => let! b := f i a in if b : bool then oforall_i f (S i) l else Ret false end.

Section Dln.
  Variable H : bytes -> bytes.

  (** proof.go 35-56 NewDLNProof; [a] are the random numbers (GetRandomPositiveInt(rand, p*q)) *)
  Definition dln_new (h1 h2 x p q N : Z) (a : list Z) : outcome dlnproof :=
    let pq := p * q in
    let! alpha := omap_i (fun _ ai => deref (mi_exp N h1 ai)) 0 a in
    let! c := deref (sha_ints H (h1 :: h2 :: N :: alpha)) in
    let! t := omap_i (fun i ai => let! cx := mi_mul pq (bit01 c i) x in mi_add pq ai cx) 0 a in
    Ret {| dl_alpha := map Some alpha; dl_t := map Some t |}.

  (** proof.go 66-69 and the like: 1 < v mod N < N; a nil element panics *)
  Definition in_group (N : Z) (v : option Z) : outcome bool := let! v := deref v in let! r := big_mod v N in Ret ((1 <? r) && (r <? N)).

  (** proof.go 58-109 Verify *)
  Definition dln_verify (pf : option dlnproof) (h1 h2 N : Z) : outcome bool :=
    match pf with
    | None => Ret false
    | Some pf =>
      if negb (0 <? N) then Ret false else
      let! b1 := in_group N (Some h1) in if negb b1 then Ret false else
      let! b2 := in_group N (Some h2) in if negb b2 then Ret false else
      let! r1 := big_mod h1 N in let! r2 := big_mod h2 N in if r1 =? r2 then Ret false else
      let! bt := oforall_i (fun _ => in_group N) 0 (dl_t pf) in if negb bt then Ret false else
      let! ba := oforall_i (fun _ => in_group N) 0 (dl_alpha pf) in if negb ba then Ret false else
      let! al := derefs (dl_alpha pf) in
      let! c := deref (sha_ints H (h1 :: h2 :: N :: al)) in
      oforall_i (fun i at_ => match at_ with
        | (Some alpha, Some t) =>
          let! l := deref (mi_exp N h1 t) in
          let! e := deref (mi_exp N h2 (bit01 c i)) in
          let! r := mi_mul N alpha e in Ret (l =? r)
        | _ => Ret false
        end) 0 (combine (dl_alpha pf) (dl_t pf))
    end.
End Dln.

(** proof.go 111-129 Serialize *)
Definition dln_serialize (pf : dlnproof) : option (list bytes) :=
  match secrets [dl_alpha pf; dl_t pf] with Some ints => Some (big_ints_to_bytes ints) | None => None end.

(** Go's copy(dst[:128], src): fills as many as fit *)
Definition copy128 (src : list (option Z)) : list (option Z) * Z := (firstn dln_iters src, Z.min 128 (Z.of_nat (length src))).
(** proof.go 131-152 UnmarshalDLNProof *)
Definition dln_unmarshal (bzs : list bytes) : outcome (option dlnproof) :=
  let! parsed := parse_secrets (map (fun b => Some (of_be b)) bzs) in
  Ret match parsed with
      | Some [a; t] =>
        let '(a', l1) := copy128 a in
        if l1 =? 128 then
          let '(t', l2) := copy128 t in
          if l2 =? 128 then Some {| dl_alpha := a'; dl_t := t' |} else None
        else None
      | _ => None
      end.

(** ** Lemmas *)
Lemma omap_i_ok {A B} (f : nat -> A -> outcome B) (g : nat -> A -> B) i l :
  (forall j a, nth_error l j = Some a -> f (i + j)%nat a = Ret (g (i + j)%nat a)) ->
  omap_i f i l = Ret (map (fun ja => g (fst ja) (snd ja)) (combine (seq i (length l)) l)).
Proof.
  revert i. induction l as [|a l IH]; intros i E; [reflexivity|]. cbn [omap_i length seq combine map fst snd].
  pose proof (E 0%nat a eq_refl) as E0. rewrite Nat.add_0_r in E0. rewrite E0. cbn [obind].
  rewrite IH; [reflexivity|]. intros j b N. replace (S i + j)%nat with (i + S j)%nat by lia. apply E. exact N.
Qed.
Lemma oforall_i_ok {A} (f : nat -> A -> outcome bool) (g : nat -> A -> bool) i l :
  (forall j a, nth_error l j = Some a -> f (i + j)%nat a = Ret (g (i + j)%nat a)) ->
  oforall_i f i l = Ret (forallb (fun ja => g (fst ja) (snd ja)) (combine (seq i (length l)) l)).
Proof.
  revert i. induction l as [|a l IH]; intros i E; [reflexivity|]. cbn [oforall_i length seq combine forallb fst snd].
  pose proof (E 0%nat a eq_refl) as E0. rewrite Nat.add_0_r in E0. rewrite E0. cbn [obind]. destruct (g i a); cbn [andb]; [|reflexivity].
  rewrite IH; [reflexivity|]. intros j b N. replace (S i + j)%nat with (i + S j)%nat by lia. apply E. exact N.
Qed.
Lemma oforall_i_true {A} (f : nat -> A -> outcome bool) i l :
  oforall_i f i l = Ret true <-> forall j a, nth_error l j = Some a -> f (i + j)%nat a = Ret true.
Proof.
  revert i. induction l as [|a l IH]; intro i; cbn [oforall_i].
  - split; [intros _ [|j] b N; discriminate N|reflexivity].
  - split.
    + destruct (f i a) as [[|]|] eqn:F; cbn [obind]; try discriminate. intros E [|j] b N.
      * cbn in N. injection N as <-. rewrite Nat.add_0_r. exact F.
      * replace (i + S j)%nat with (S i + j)%nat by lia. apply (proj1 (IH (S i)) E). exact N.
    + intro E. pose proof (E 0%nat a eq_refl) as E0. rewrite Nat.add_0_r in E0. rewrite E0. cbn [obind]. apply IH.
      intros j b N. replace (S i + j)%nat with (i + S j)%nat by lia. apply E. exact N.
Qed.
Lemma nth_error_combine {A B} (l : list A) (m : list B) i :
  nth_error (combine l m) i = match nth_error l i, nth_error m i with Some a, Some b => Some (a, b) | _, _ => None end.
Proof. revert m i. induction l as [|a l IH]; intros [|b m] [|i]; try reflexivity; cbn; [destruct (nth_error l i); reflexivity|apply IH]. Qed.
Lemma nth_error_seq0 n i : (i < n)%nat -> nth_error (seq 0 n) i = Some i.
Proof. intro L. rewrite (nth_error_nth' _ 0%nat) by (rewrite seq_length; exact L). rewrite seq_nth by exact L. reflexivity. Qed.
Lemma big_mod_pos v N : 0 < N -> big_mod v N = Ret (v mod N).
Proof. intro P. unfold big_mod. destruct (Z.eqb_spec N 0); [lia|]. rewrite Z.abs_eq by lia. reflexivity. Qed.
Lemma mi_exp_pos N x y : 0 < N -> mi_exp N x y = expm x y N.
Proof. intro P. unfold mi_exp. destruct (Z.eqb_spec N 0); [lia|]. rewrite Z.abs_eq by lia. reflexivity. Qed.
Lemma in_group_pos N v : 0 < N -> in_group N (Some v) = Ret (1 <? v mod N).
Proof.
  intro P. unfold in_group. cbn [deref obind]. rewrite big_mod_pos by exact P. cbn [obind]. f_equal.
  pose proof (Z.mod_pos_bound v N P). destruct (Z.ltb_spec (v mod N) N); [|lia]. apply andb_true_r.
Qed.
