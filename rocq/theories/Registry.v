(** Registry.v -- tss/curve.go 24-86 (curve registry, current curve) and crypto/ecpoint.go 234-277 on top of it, and C63.

    A curve value (elliptic.Curve) is an element of [crv] with a dynamic type [ty]; [None] is the nil interface.  Go iterates
    over a map in an unspecified order, so GetCurveName takes the order as an argument: any permutation of the entries.
    Simplification: JSON strings are those without escapes (Json.v). *)
From Verif Require Import Base BigInt Text Json PartyID Curve Save.
From Coq Require Import Permutation.

Section Registry.
  Variable crv : Type.
  Variable ty : crv -> Z.
  Variable onc : crv -> Z -> Z -> bool.
  Variables s256 ed : crv.
  Notation iface := (option crv).
  Definition entry : Type := (bytes * iface)%type.
  (** reflect.TypeOf: nil for the nil interface *)
  Definition type_of (c : iface) : option Z := option_map ty c.
  Definition type_eqb (a b : option Z) : bool := match a, b with Some a, Some b => a =? b | None, None => true | _, _ => false end.
  (** 25-28: the two package variables *)
  Record rstate := { reg : list entry; ec : iface }.
  (** map assignment: replaces the entry of the name or adds one *)
  Fixpoint map_set (n : bytes) (c : iface) (m : list entry) : list entry :=
    match m with [] => [(n, c)] | (n', c') :: r => if bytes_eqb n n' then (n, c) :: r else (n', c') :: map_set n c r end.
  Fixpoint map_get (n : bytes) (m : list entry) : option iface :=
    match m with [] => None | (n', c') :: r => if bytes_eqb n n' then Some c' else map_get n r end.
  (** 31-37 init *)
  Definition rinit : rstate := {| reg := map_set (str "ed25519") (Some ed) (map_set (str "secp256k1") (Some s256) []); ec := Some s256 |}.
  (** 39-41 RegisterCurve *)
  Definition register (n : bytes) (c : iface) (s : rstate) : rstate := {| reg := map_set n c (reg s); ec := ec s |}.
  (** 44-50 GetCurveByName; outer [None] = does not exist *)
  Definition by_name (s : rstate) (n : bytes) : option iface := map_get n (reg s).
  (** 53-63 GetCurveName with the entries visited in the order given *)
  Fixpoint name_of (order : list entry) (c : iface) : option bytes :=
    match order with [] => None | (n, e) :: r => if type_eqb (type_of c) (type_of e) then Some n else name_of r c end.
  (** 72-77 SetCurve; EC (66-68) reads [ec] *)
  Definition set_curve (c : iface) (s : rstate) : outcome rstate := match c with None => Panic | Some _ => Ret {| reg := reg s; ec := c |} end.
  (** calls of other packages; a panic of SetCurve leaves the variables as they were *)
  Inductive call := Register (n : bytes) (c : iface) | SetCurve (c : iface).
  Definition rstep (s : rstate) (k : call) : rstate :=
    match k with Register n c => register n c s | SetCurve c => match set_curve c s with Ret s => s | Panic => s end end.
  Definition rrun (h : list call) : rstate := fold_left rstep h rinit.

  Record rpoint := { rp_c : iface; rp_x : option Z; rp_y : option Z }.
  (** ecpoint.go 117-122 isOnCurve: calling a method of the nil interface panics *)
  Definition ron (c : iface) (x y : option Z) : outcome bool :=
    match x, y with Some x, Some y => match c with Some c => Ret (onc c x y) | None => Panic end | _, _ => Ret false end.
  (** ecpoint.go 234-247 MarshalJSON *)
  Definition rmarshal (order : list entry) (p : rpoint) : option bytes :=
    match name_of order (rp_c p) with
    | None => None
    | Some n => Some (jenc (JObj [(str "Curve", JStr n); (str "Coords", JArr [jz (rp_x p); jz (rp_y p)])]))
    end.
  (** ecpoint.go 249-277 UnmarshalJSON *)
  Definition runmarshal (s : rstate) (b : bytes) : outcome (option rpoint) :=
    match jdec b with
    | Some (JObj l) =>
      match dfields dpoint_field ([], (None, None)) l with
      | Some (nm, (x, y)) =>
        match (match nm with [] => Some (ec s) | _ => by_name s nm end) with
        | Some c => let! o := ron c x y in Ret (if o then Some {| rp_c := c; rp_x := x; rp_y := y |} else None)
        | None => Ret None
        end
      | None => Ret None
      end
    | _ => Ret None
    end.

  (** ** specification: the calls, read from the last one *)
  Fixpoint last_registered (n : bytes) (rh : list call) : option iface :=
    match rh with [] => None | Register n' c :: r => if bytes_eqb n n' then Some c else last_registered n r | SetCurve _ :: r => last_registered n r end.
  Fixpoint last_set (rh : list call) : option crv :=
    match rh with [] => None | SetCurve (Some c) :: _ => Some c | _ :: r => last_set r end.
  Definition initial (n : bytes) : option iface :=
    if bytes_eqb n (str "secp256k1") then Some (Some s256) else if bytes_eqb n (str "ed25519") then Some (Some ed) else None.

  Lemma map_get_set n c m n' : map_get n' (map_set n c m) = if bytes_eqb n' n then Some c else map_get n' m.
  Proof.
    induction m as [|[k e] m IH]; cbn [map_set map_get].
    - destruct (bytes_eqb n' n); reflexivity.
    - destruct (bytes_eqb n k) eqn:E; cbn [map_get].
      + apply bytes_eqb_eq in E. subst k. destruct (bytes_eqb n' n); reflexivity.
      + destruct (bytes_eqb n' k) eqn:E2; [|exact IH]. apply bytes_eqb_eq in E2. subst k. destruct (bytes_eqb n' n) eqn:E3; [|reflexivity]. apply bytes_eqb_eq in E3. subst n'. rewrite bytes_eqb_refl in E. discriminate E.
  Qed.
  Lemma init_get n : map_get n (reg rinit) = initial n.
  Proof. unfold rinit, initial, reg. rewrite map_get_set, map_get_set. cbn [map_get]. destruct (bytes_eqb n (str "ed25519")) eqn:E; [|reflexivity]. apply bytes_eqb_eq in E. subst n. reflexivity. Qed.
  Definition cnames (m : list entry) : list bytes := map fst m.
  Lemma set_names n c m k : In k (cnames (map_set n c m)) -> k = n \/ In k (cnames m).
  Proof.
    induction m as [|[k' e] m IH]; cbn [map_set cnames map In fst]; [intros [<-|[]]; now left|].
    destruct (bytes_eqb n k') eqn:E; cbn [map fst In]; [intros [<-|H]; auto|]. intros [<-|H]; [auto|]. destruct (IH H); auto.
  Qed.
  Lemma set_nodup n c m : NoDup (cnames m) -> NoDup (cnames (map_set n c m)).
  Proof.
    induction m as [|[k e] m IH]; cbn [map_set cnames map fst]; intro D; [repeat constructor; intros []|].
    inversion D as [|? ? NI D']; subst. destruct (bytes_eqb n k) eqn:E; cbn [map fst].
    - apply bytes_eqb_eq in E. subst k. constructor; assumption.
    - constructor; [|apply IH, D']. intro H. destruct (set_names _ _ _ _ H) as [->|H2]; [rewrite bytes_eqb_refl in E; discriminate E|]. apply NI, H2.
  Qed.
  Lemma run_nodup h : NoDup (cnames (reg (rrun h))).
  Proof.
    unfold rrun. assert (G : forall s, NoDup (cnames (reg s)) -> NoDup (cnames (reg (fold_left rstep h s)))).
    { induction h as [|k h IH]; intros s D; [exact D|]. cbn [fold_left]. apply IH. destruct k as [n c|[c|]]; cbn [rstep set_curve]; [apply set_nodup, D|exact D|exact D]. }
    apply G. unfold rinit, reg. apply set_nodup, set_nodup. constructor.
  Qed.
  Lemma get_in m n c : NoDup (cnames m) -> (map_get n m = Some c <-> In (n, c) m).
  Proof.
    induction m as [|[k e] m IH]; cbn [map_get cnames map fst In]; intro D; [split; [discriminate|intros []]|].
    inversion D as [|? ? NI D']; subst. destruct (bytes_eqb n k) eqn:E.
    - apply bytes_eqb_eq in E. subst k. split; [intro H; left; congruence|]. intros [H|H]; [congruence|]. exfalso. apply NI. apply (in_map fst) in H. exact H.
    - rewrite (IH D'). split; [auto|]. intros [H|H]; [|exact H]. assert (k = n) as -> by congruence. rewrite bytes_eqb_refl in E. discriminate E.
  Qed.

  (** ** C63 *)
  (** a lookup returns what was registered last under the name, in every history *)
  Theorem C63_lookup h n : by_name (rrun h) n = match last_registered n (rev h) with Some c => Some c | None => initial n end.
  Proof.
    induction h as [|k h IH] using rev_ind; [apply init_get|].
    unfold by_name, rrun in *. rewrite fold_left_app, rev_app_distr. cbn [fold_left rev app last_registered].
    destruct k as [n' c|[c|]]; cbn [rstep set_curve last_registered]; [|exact IH|exact IH].
    cbn [register reg]. rewrite map_get_set. destruct (bytes_eqb n n'); [reflexivity|exact IH].
  Qed.
  (** the current curve is the last one set, secp256k1 before that; it is never nil: SetCurve(nil) panics and changes nothing *)
  Theorem C63_current h : ec (rrun h) = Some (match last_set (rev h) with Some c => c | None => s256 end) /\ set_curve None (rrun h) = Panic.
  Proof.
    split; [|reflexivity]. induction h as [|k h IH] using rev_ind; [reflexivity|].
    unfold rrun in *. rewrite fold_left_app, rev_app_distr. cbn [fold_left rev app last_set].
    destruct k as [n' c|[c|]]; cbn [rstep set_curve last_set register ec]; [exact IH|reflexivity|exact IH].
  Qed.
  Lemma type_eqb_eq a b : type_eqb a b = true <-> a = b.
  Proof. destruct a, b; cbn; split; intro H; try congruence; [apply Z.eqb_eq in H; congruence|]. injection H as ->. apply Z.eqb_refl. Qed.
  (** the name found for a curve is, in every iteration order, one under which a curve of the same dynamic type is registered; none is found exactly if there is none *)
  Theorem C63_name h order c : Permutation order (reg (rrun h)) ->
    (forall n, name_of order c = Some n -> exists e, by_name (rrun h) n = Some e /\ type_of e = type_of c) /\
    (name_of order c = None <-> forall n e, by_name (rrun h) n = Some e -> type_of e <> type_of c) /\
    (forall n e, by_name (rrun h) n = Some e -> type_of e = type_of c -> exists order', Permutation order' (reg (rrun h)) /\ name_of order' c = Some n).
  Proof.
    intro PM. pose proof (run_nodup h) as ND. unfold by_name. split; [|split].
    - intros n E. assert (I : exists e, In (n, e) order /\ type_of e = type_of c).
      { clear PM. induction order as [|[k e] r IH]; cbn [name_of] in E; [discriminate E|]. destruct (type_eqb (type_of c) (type_of e)) eqn:T.
        - assert (k = n) as -> by congruence. apply type_eqb_eq in T. exists e. split; [now left|congruence].
        - destruct (IH E) as (e' & I & T'). exists e'. split; [now right|exact T']. }
      destruct I as (e & I & T). exists e. split; [|exact T]. apply get_in; [exact ND|]. apply (Permutation_in _ PM), I.
    - split.
      + intros E n e G T. apply (get_in _ _ _ ND) in G. apply (Permutation_in _ (Permutation_sym PM)) in G. clear PM. revert E.
        induction order as [|[k e'] r IH]; [destruct G|]. cbn [name_of]. destruct (type_eqb (type_of c) (type_of e')) eqn:T'; [discriminate|]. destruct G as [G|G]; [|exact (IH G)].
        assert (e' = e) as -> by congruence. rewrite (proj2 (type_eqb_eq _ _) (eq_sym T)) in T'. discriminate T'.
      + intro H. assert (H' : forall n e, In (n, e) order -> type_of e <> type_of c) by (intros n e I; apply (H n e), (get_in _ _ _ ND), (Permutation_in _ PM), I). clear PM H.
        induction order as [|[k e'] r IH]; [reflexivity|]. cbn [name_of]. destruct (type_eqb (type_of c) (type_of e')) eqn:T'; [|apply IH; intros n e I; apply (H' n e); now right].
        apply type_eqb_eq in T'. destruct (H' k e' (or_introl eq_refl)). congruence.
    - intros n e G T. apply (get_in _ _ _ ND) in G. apply in_split in G. destruct G as (a & b & G). exists ((n, e) :: a ++ b). split; [rewrite G; apply Permutation_middle|].
      cbn [name_of]. rewrite (proj2 (type_eqb_eq _ _) (eq_sym T)). reflexivity.
  Qed.

  Definition plain_name (n : bytes) : Prop := n <> [] /\ forallb safe_ch n = true.
  Lemma unmarshal_text s n x y : forallb safe_ch n = true ->
    runmarshal s (jenc (JObj [(str "Curve", JStr n); (str "Coords", JArr [jz x; jz y])])) =
    match (match n with [] => Some (ec s) | _ => by_name s n end) with
    | Some c => let! o := ron c x y in Ret (if o then Some {| rp_c := c; rp_x := x; rp_y := y |} else None)
    | None => Ret None
    end.
  Proof.
    intro SN. unfold runmarshal. rewrite jdec_jenc.
    2: { assert (TN : forall o, jok (jz o)) by (intros [z|]; cbn; [apply ztok_num|exact I]). cbn [jok fold_right fst snd]. repeat split; try reflexivity; try apply TN; exact SN. }
    cbn [dfields fold_left]. unfold dpoint_field at 2. cbn [fst snd]. change (name_is "Curve" (str "Curve")) with true. cbn iota.
    unfold dpoint_field. cbn [fst snd]. change (name_is "Curve" (str "Coords")) with false. change (name_is "Coords" (str "Coords")) with true. cbn iota. cbn [firstn dlist]. rewrite !dz_jz.
    change (name_is "Curve" (str "Curve")) with true. cbv iota. cbn [fst]. reflexivity.
  Qed.
  (** If, when a point is written, every curve registered with its dynamic type is its curve, under a plain name, and when it is read the name still stands for the curve, the point comes back -- whatever the histories, the iteration order and the current curve. *)
  Theorem C63_round_trip h h' order c x y b : Permutation order (reg (rrun h)) -> onc c x y = true ->
    (forall n e, by_name (rrun h) n = Some e -> type_of e = Some (ty c) -> plain_name n /\ by_name (rrun (h ++ h')) n = Some (Some c)) ->
    rmarshal order {| rp_c := Some c; rp_x := Some x; rp_y := Some y |} = Some b ->
    runmarshal (rrun (h ++ h')) b = Ret (Some {| rp_c := Some c; rp_x := Some x; rp_y := Some y |}).
  Proof.
    intros PM O H E. unfold rmarshal in E. cbn [rp_c rp_x rp_y] in E. destruct (name_of order (Some c)) as [n|] eqn:NE; [|discriminate E].
    destruct (C63_name h order (Some c) PM) as (N1 & _ & _). destruct (N1 n NE) as (e & G & T). destruct (H n e G T) as ((NN & SN) & G'). assert (b = jenc (JObj [(str "Curve", JStr n); (str "Coords", JArr [jz (Some x); jz (Some y)])])) as -> by congruence.
    rewrite unmarshal_text by exact SN. rewrite G'. destruct n; [congruence|]. cbn [ron obind]. rewrite O. reflexivity.
  Qed.
  (** what is written for a curve whose type is registered is never an error, and for any other curve always *)
  Theorem C63_marshal_total h order p : Permutation order (reg (rrun h)) ->
    (rmarshal order p <> None <-> exists n e, by_name (rrun h) n = Some e /\ type_of e = type_of (rp_c p)).
  Proof.
    intro PM. destruct (C63_name h order (rp_c p) PM) as (N1 & N2 & _). unfold rmarshal. destruct (name_of order (rp_c p)) as [n|] eqn:E.
    - split; [intros _; destruct (N1 n eq_refl) as (e & H); exists n, e; exact H|discriminate].
    - split; [congruence|]. intros (n & e & G & T). exfalso. apply (proj1 N2 eq_refl n e G T).
  Qed.
  (** what is read is on the curve that the text names, or on the current one if it names none *)
  Theorem C63_read_on_curve h b p : runmarshal (rrun h) b = Ret (Some p) -> exists c x y, p = {| rp_c := Some c; rp_x := Some x; rp_y := Some y |} /\ onc c x y = true /\
    ((exists n, n <> [] /\ by_name (rrun h) n = Some (Some c)) \/ ec (rrun h) = Some c).
  Proof.
    unfold runmarshal. destruct (jdec b) as [[| | | | |l]|]; try discriminate. destruct (dfields _ _ _) as [[nm [x y]]|]; [|discriminate].
    destruct (match nm with [] => Some (ec (rrun h)) | _ => by_name (rrun h) nm end) as [c|] eqn:EC'; [|discriminate]. unfold ron. destruct x as [x|]; [|discriminate]. destruct y as [y|]; [|discriminate].
    destruct c as [c|]; [|discriminate]. cbn [obind]. destruct (onc c x y) eqn:O; [|discriminate]. intro E. exists c, x, y. split; [congruence|]. split; [exact O|]. destruct nm as [|n0 n]; [right; congruence|left]. exists (n0 :: n). split; [discriminate|exact EC'].
  Qed.
  (** ** what goes wrong *)
  (** two names with curves of the same dynamic type (for instance two elliptic.CurveParams): in some iteration order a point of the first curve is read back as a point of the second, or refused *)
  Theorem C63_shared_type_refuted h n1 n2 c1 c2 x y : by_name (rrun h) n1 = Some (Some c1) -> by_name (rrun h) n2 = Some (Some c2) -> ty c1 = ty c2 -> plain_name n2 ->
    exists order b, Permutation order (reg (rrun h)) /\ rmarshal order {| rp_c := Some c1; rp_x := Some x; rp_y := Some y |} = Some b /\
      runmarshal (rrun h) b = Ret (if onc c2 x y then Some {| rp_c := Some c2; rp_x := Some x; rp_y := Some y |} else None).
  Proof.
    intros G1 G2 T (NN & SN). destruct (C63_name h (reg (rrun h)) (Some c1) (Permutation_refl _)) as (_ & _ & N3). destruct (N3 n2 (Some c2) G2) as (order & PM & E); [cbn; congruence|].
    exists order. eexists. split; [exact PM|]. unfold rmarshal. cbn [rp_c rp_x rp_y]. rewrite E. split; [reflexivity|]. rewrite unmarshal_text by exact SN. rewrite G2. destruct n2; [congruence|]. cbn [ron obind]. reflexivity.
  Qed.
  (** a curve registered under the empty name is written in a form that means the current curve *)
  Theorem C63_empty_name_refuted h c x y : by_name (rrun h) [] = Some (Some c) -> exists order b, Permutation order (reg (rrun h)) /\ rmarshal order {| rp_c := Some c; rp_x := Some x; rp_y := Some y |} = Some b /\
    exists c', ec (rrun h) = Some c' /\ runmarshal (rrun h) b = Ret (if onc c' x y then Some {| rp_c := Some c'; rp_x := Some x; rp_y := Some y |} else None).
  Proof.
    intro G. destruct (C63_name h (reg (rrun h)) (Some c) (Permutation_refl _)) as (_ & _ & N3). destruct (N3 [] (Some c) G eq_refl) as (order & PM & E).
    exists order. eexists. split; [exact PM|]. unfold rmarshal. cbn [rp_c rp_x rp_y]. rewrite E. split; [reflexivity|]. destruct (C63_current h) as [EC' _]. eexists. split; [exact EC'|]. rewrite unmarshal_text by reflexivity. rewrite EC'. cbn [ron obind]. reflexivity.
  Qed.
  (** a name registered with the nil interface: reading a point that carries it panics, whatever its coordinates *)
  Theorem C63_nil_panics_refuted h n x y : by_name (rrun h) n = Some None -> plain_name n ->
    runmarshal (rrun h) (jenc (JObj [(str "Curve", JStr n); (str "Coords", JArr [jz (Some x); jz (Some y)])])) = Panic.
  Proof. intros G (NN & SN). rewrite unmarshal_text by exact SN. rewrite G. destruct n; [congruence|reflexivity]. Qed.
  (** ... and without that, reading never panics *)
  Theorem C63_read_total h b : (forall n, by_name (rrun h) n <> Some None) -> exists o, runmarshal (rrun h) b = Ret o.
  Proof.
    intro H. unfold runmarshal. destruct (jdec b) as [[| | | | |l]|]; eauto. destruct (dfields _ _ _) as [[nm [x y]]|]; eauto.
    destruct (match nm with [] => Some (ec (rrun h)) | _ => by_name (rrun h) nm end) as [c|] eqn:EC'; eauto. unfold ron. destruct x as [x|]; [|cbn; eauto]. destruct y as [y|]; [|cbn; eauto].
    destruct c as [c|]; [cbn; eauto|]. destruct nm as [|n0 n]; [destruct (C63_current h) as [E _]; congruence|]. destruct (H _ EC').
  Qed.
  (** the two curves of the library come back as long as their names and types are not registered again *)
  Theorem C63_builtin h h' order c x y b : (c = s256 \/ c = ed) -> ty s256 <> ty ed ->
    (forall n e, In (Register n e) (h ++ h') -> n <> str "secp256k1" /\ n <> str "ed25519" /\ type_of e <> Some (ty s256) /\ type_of e <> Some (ty ed)) ->
    Permutation order (reg (rrun h)) -> onc c x y = true -> rmarshal order {| rp_c := Some c; rp_x := Some x; rp_y := Some y |} = Some b ->
    runmarshal (rrun (h ++ h')) b = Ret (Some {| rp_c := Some c; rp_x := Some x; rp_y := Some y |}).
  Proof.
    intros CC TY HR PM O E. apply (C63_round_trip h h' order c x y b PM O); [|exact E].
    assert (LR : forall g n e, last_registered n g = Some e -> In (Register n e) g).
    { clear. induction g as [|[n' c|c] g IH]; intros n e E; cbn [last_registered] in E; [discriminate E| |right; apply IH, E].
      destruct (bytes_eqb n n') eqn:B; [apply bytes_eqb_eq in B; left; congruence|right; apply IH, E]. }
    intros n e G T. rewrite C63_lookup in G. destruct (last_registered n (rev h)) as [e'|] eqn:L.
    - apply LR, in_rev in L. destruct (HR n e') as (_ & _ & T1 & T2); [apply in_or_app; now left|]. assert (e' = e) as -> by congruence. destruct CC as [-> | ->]; congruence.
    - assert (NI : last_registered n (rev (h ++ h')) = None).
      { destruct (last_registered n (rev (h ++ h'))) as [e'|] eqn:L'; [|reflexivity]. apply LR, in_rev in L'. destruct (HR n e' L') as (N1 & N2 & _). unfold initial in G.
        destruct (bytes_eqb n (str "secp256k1")) eqn:B1; [apply bytes_eqb_eq in B1; congruence|]. destruct (bytes_eqb n (str "ed25519")) eqn:B2; [apply bytes_eqb_eq in B2; congruence|discriminate G]. }
      rewrite C63_lookup, NI. unfold initial in *. destruct (bytes_eqb n (str "secp256k1")) eqn:B1.
      + apply bytes_eqb_eq in B1. subst n. split; [split; [discriminate|reflexivity]|]. assert (e = Some s256) as -> by congruence. cbn [type_of option_map] in T. destruct CC as [-> | ->]; [reflexivity|congruence].
      + destruct (bytes_eqb n (str "ed25519")) eqn:B2; [|discriminate G]. apply bytes_eqb_eq in B2. subst n. split; [split; [discriminate|reflexivity]|]. assert (e = Some ed) as -> by congruence. cbn [type_of option_map] in T. destruct CC as [-> | ->]; [congruence|reflexivity].
  Qed.
End Registry.
(** the hypotheses are met: three curves, the third registered under two names, and one set as current *)
Theorem C63_example : let on (c : nat) (x y : Z) := (x =? Z.of_nat c) && (y =? 1) in
  let h := [Register nat (str "a") (Some 2%nat); SetCurve nat None; SetCurve nat (Some 2%nat)] in let h' := [Register nat (str "b") (Some 2%nat)] in
  exists b, rmarshal nat Z.of_nat (reg nat (rrun nat 0%nat 1%nat h)) {| rp_c := Some 1%nat; rp_x := Some 1; rp_y := Some 1 |} = Some b /\
    runmarshal nat on (rrun nat 0%nat 1%nat (h ++ h')) b = Ret (Some {| rp_c := Some 1%nat; rp_x := Some 1; rp_y := Some 1 |}) /\ ec nat (rrun nat 0%nat 1%nat h) = Some 2%nat.
Proof. eexists. split; [reflexivity|]. split; reflexivity. Qed.
