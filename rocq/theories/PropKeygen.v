(** PropKeygen.v -- C05: honest key generation always succeeds and agrees, for any number of parties and
    any schedule of calls and deliveries. *)
From Verif Require Import Base BigInt HashFrame Text Wire Messages PartyID Curve Schnorr Json Save Keygen Xor KeygenNet KeygenHonest KeygenWorld ToyCurve.
From Coq Require Import Permutation Sorted.

(** What the theorems assume of the environment: a curve satisfying the group laws, a 32-byte hash, 32-byte
    random strings, at least one party. *)
Definition kg_env (C : curve) (H : bytes -> bytes) (N : nat) (rnd : nat -> kg_rand) : Prop :=
  curve_laws C /\ (forall b, length (H b) = 32%nat) /\ (0 < N)%nat /\
  (forall i, (i < N)%nat -> length (kr_u (rnd i)) = 32%nat /\ length (kr_srid (rnd i)) = 32%nat).

Section C05.
  Variables (C : curve) (H : bytes -> bytes) (N : nat) (rnd : nat -> kg_rand) (pids : list bytes) (roots : nat -> bytes).
  Hypothesis E : kg_env C H N rnd.
  Notation reach := (k_reach C H N rnd pids roots).
  Notation x := (root_scalar roots).

  (** every call an honest caller can make returns (no panic), and every round call and every delivery
      reports success *)
  Theorem C05_every_call_succeeds w e : reach w -> k_enabled N e w ->
    exists res w', k_run C H rnd e w = Ret (res, w') /\ ((forall i c, e <> KChain i c) -> r_ok res = true).
  Proof.
    intros R En. destruct E as (L & Hl & HN & Hr).
    destruct (reach_inv C L H Hl N rnd Hr pids roots w HN R) as (ids & M & Li & pc & ch & s & I).
    destruct (inv_step C L H Hl N rnd Hr ids Li x w pc ch s e I En) as (res & w' & _ & _ & _ & Run & _ & Ok).
    exists res, w'. split; [exact Run|]. intro NC. destruct e; auto. exfalso. eapply NC; reflexivity.
  Qed.

  (** from every reachable situation the protocol can be completed: there is no deadlock *)
  Theorem C05_no_deadlock w : reach w -> exists w', k_steps C H N rnd w w' /\ forall i, (i < N)%nat -> w_out w' 4%nat i <> None.
  Proof.
    intros R. destruct E as (L & Hl & HN & Hr).
    destruct (reach_inv C L H Hl N rnd Hr pids roots w HN R) as (ids & M & Li & pc & ch & s & I).
    eapply inv_complete; eauto.
  Qed.

  Lemma out4_decodes w i b : reach w -> (i < N)%nat -> w_out w 4%nat i = Some b ->
    exists ids c, make_ids (Z.of_nat N) pids = Ret ids /\ length ids = N /\ save_dec C b = Some (sv C N ids x 4 i c).
  Proof.
    intros R Hi Ho. destruct E as (L & Hl & HN & Hr).
    destruct (reach_inv C L H Hl N rnd Hr pids roots w HN R) as (ids & M & Li & pc & ch & s & I).
    pose proof (ki_out4 _ _ _ _ _ _ _ _ _ _ I i Hi) as O. destruct (4 <=? pc i)%nat; [|congruence].
    destruct O as [c O]. rewrite Ho in O. inversion O; subst b. exists ids, c. split; [auto|]. split; [auto|].
    apply save_roundtrip. split; cbn [sv sv_pub sv_ed Nat.leb].
    - intros p Hp. apply in_map_iff in Hp. destruct Hp as (k & Ek & _). inversion Ek. apply gmul_on; auto.
    - intros p Hp. inversion Hp. apply gmul_on; auto.
  Qed.

  (** The data returned by round 4 of any party decodes; it holds the party's own root key, the public
      share x_j * G of every party j, and the public key (sum of all x_j) * G; the party ids are those of
      the call, in ascending order. *)
  Theorem C05_output w i b : reach w -> (i < N)%nat -> w_out w 4%nat i = Some b ->
    exists s, save_dec C b = Some s /\
      sv_priv s = Some (x i) /\
      length (sv_pub s) = N /\ (forall j, (j < N)%nat -> nth_error (sv_pub s) j = Some (base_mul C (x j))) /\
      sv_ed s = base_mul C (fold_right Z.add 0 (map x (seq 0 N))) /\ sv_ed s <> None /\
      exists ids, make_ids (Z.of_nat N) pids = Ret ids /\ sv_ks s = map Some (keys ids) /\
        sv_share s = nth_error (keys ids) i.
  Proof.
    intros R Hi Ho. destruct (out4_decodes w i b R Hi Ho) as (ids & c & M & Li & D). destruct E as (L & _).
    eexists. split; [exact D|]. cbn [sv sv_priv sv_pub sv_ed sv_ks sv_share Nat.leb].
    split; [reflexivity|]. split; [rewrite map_length, seq_length; reflexivity|].
    split; [intros j Hj; rewrite nth_error_map_seq by auto; rewrite base_mul_eq by auto; reflexivity|].
    split; [rewrite base_mul_eq by auto; reflexivity|]. split; [discriminate|].
    exists ids. repeat split; auto. symmetry. apply nth_error_nth'. unfold keys. rewrite map_length. lia.
  Qed.

  (** any two parties end with the same public shares, ids and public key *)
  Theorem C05_agree w i j bi bj : reach w -> (i < N)%nat -> (j < N)%nat ->
    w_out w 4%nat i = Some bi -> w_out w 4%nat j = Some bj ->
    exists si sj, save_dec C bi = Some si /\ save_dec C bj = Some sj /\
      sv_pub si = sv_pub sj /\ sv_ed si = sv_ed sj /\ sv_ks si = sv_ks sj.
  Proof.
    intros R Hi Hj Hbi Hbj.
    destruct (out4_decodes w i bi R Hi Hbi) as (ids & c & M & Li & D).
    destruct (out4_decodes w j bj R Hj Hbj) as (ids' & c' & M' & Li' & D').
    rewrite M in M'. inversion M'; subst ids'. do 2 eexists. split; [exact D|]. split; [exact D'|]. repeat split.
  Qed.

  (** the private shares returned to the parties are shares of the secret key of the public key *)
  Theorem C05_shares_of_key w (b : nat -> bytes) (s : nat -> save) : reach w ->
    (forall i, (i < N)%nat -> w_out w 4%nat i = Some (b i) /\ save_dec C (b i) = Some (s i)) ->
    forall i, (i < N)%nat -> sv_ed (s i) =
      base_mul C (fold_right Z.add 0 (map (fun k => match sv_priv (s k) with Some x => x | None => 0 end) (seq 0 N))).
  Proof.
    intros R Hb i Hi. destruct (Hb i Hi) as [Ho D].
    destruct (C05_output w i (b i) R Hi Ho) as (s' & D' & _ & _ & _ & Ed & _).
    rewrite D in D'; inversion D'; subst s'. rewrite Ed. do 2 f_equal. apply map_ext_in. intros k Hk. apply in_seq in Hk.
    destruct (Hb k ltac:(lia)) as [Hok Dk].
    destruct (C05_output w k (b k) R ltac:(lia) Hok) as (s'' & D'' & P & _). rewrite Dk in D''. inversion D''; subst s''.
    rewrite P. reflexivity.
  Qed.
End C05.

(** ** The hypotheses can be met: two parties with root keys 0x05 and 0x0b13 on the toy curve *)
Definition ex_rnd (i : nat) : kg_rand :=
  {| kr_x := 3; kr_tau := Z.of_nat i + 4; kr_u := repeat (zb (Z.of_nat i + 1)) 32; kr_srid := repeat (zb (Z.of_nat i + 7)) 32 |}.
Definition ex_pids : list bytes := [str "20"; str "10"].
Definition ex_roots (i : nat) : bytes := match i with 0%nat => str "05" | _ => str "0b13" end.
Definition ex_party (i : nat) : kparty :=
  match kg_new (Z.of_nat i) 2 ex_pids (ex_roots i) with
  | Ret (_, Some p) => p
  | _ => {| kp_i := 0; kp_ids := []; kp_save := new_save 0; kp_tau := None; kp_A := None; kp_srid := []; kp_u := []; kp_payload := [];
            kp_ssid := []; kp_V := []; kp_r1 := []; kp_r2 := []; kp_r3 := []; kp_number := 0 |}
  end.
Definition ex_world : kworld := {| w_p := ex_party; w_out := fun _ _ => None |}.
Lemma ex_env : kg_env toy toy_hash 2 ex_rnd.
Proof. split; [exact toy_laws|]. split; [exact toy_hash_len|]. split; [lia|]. intros i _. cbn. auto. Qed.
Lemma ex_init : k_init 2 ex_pids ex_roots ex_world.
Proof.
  split; [reflexivity|]. intros i Hi. exists ok0. split; [|reflexivity].
  destruct i as [|[|i]]; [| |lia]; vm_compute; reflexivity.
Qed.
Lemma reach_steps C H N rnd pids roots w w' : k_reach C H N rnd pids roots w -> k_steps C H N rnd w w' -> k_reach C H N rnd pids roots w'.
Proof. intros R S. revert R. induction S as [|w e res w1 w2 _ En Run St IH]; intro R; auto. apply IH. eapply kr_step; eauto. Qed.
Theorem C05_example : exists w, k_reach toy toy_hash 2 ex_rnd ex_pids ex_roots w /\
  exists b0 b1 s0, w_out w 4%nat 0%nat = Some b0 /\ w_out w 4%nat 1%nat = Some b1 /\
    save_dec toy b0 = Some s0 /\ sv_ed s0 = base_mul toy (5 + 2835).
Proof.
  pose proof (kr_init toy toy_hash 2 ex_rnd ex_pids ex_roots ex_world ex_init) as R0.
  destruct (C05_no_deadlock toy toy_hash 2 ex_rnd ex_pids ex_roots ex_env ex_world R0) as (w & S & D).
  exists w. assert (R := reach_steps _ _ _ _ _ _ _ _ R0 S). split; [exact R|].
  destruct (w_out w 4 0) as [b0|] eqn:E0; [|exfalso; apply (D 0%nat); [lia|exact E0]].
  destruct (w_out w 4 1) as [b1|] eqn:E1; [|exfalso; apply (D 1%nat); [lia|exact E1]].
  destruct (C05_output toy toy_hash 2 ex_rnd ex_pids ex_roots ex_env w 0 b0 R ltac:(lia) E0) as (s0 & D0 & _ & _ & _ & Ed & _).
  exists b0, b1, s0. repeat (split; [auto|]). rewrite Ed. vm_compute. reflexivity.
Qed.
