(** Properties C71, C72: fast_pimpl.hpp. *)
From Verif Require Import PimplProofs.

(** C71. *)
Theorem C71_object_inside_storage Size Alignment Strict ActualSize ActualAlignment addr :
  0 < ActualAlignment -> 0 < Alignment -> storage_ok Alignment addr ->
  validate Size Alignment Strict ActualSize ActualAlignment = true ->
  addr <= get_address addr /\ get_address addr + ActualSize <= addr + Size /\ get_address addr mod ActualAlignment = 0 /\
  (Strict = true -> ActualSize = Size).
Proof.
  unfold storage_ok, validate, get_address. intros A1 A2 S V.
  apply andb_prop in V. destruct V as (V & V3). apply andb_prop in V. destruct V as (V1 & V2).
  split; [lia|]. split; [lia|]. split.
  - apply Z.mod_divide in S; [|lia]. apply Z.eqb_eq in V3. apply Z.mod_divide in V3; [|lia].
    apply Z.mod_divide; [lia|]. apply (Z.divide_trans _ Alignment); assumption.
  - intros ->. cbn in V2. lia.
Qed.
(** The checks are not stricter than needed: what they refuse would not fit, would not always be
    aligned, or is a size mismatch under Strict. *)
Theorem C71_refused_only_if_unsafe Size Alignment Strict ActualSize ActualAlignment :
  0 < ActualAlignment -> 0 < Alignment -> validate Size Alignment Strict ActualSize ActualAlignment = false ->
  Size < ActualSize \/ (Strict = true /\ Size <> ActualSize) \/
  exists addr, storage_ok Alignment addr /\ get_address addr mod ActualAlignment <> 0.
Proof.
  intros A1 A2 V. unfold validate in V.
  destruct (Z.leb_spec ActualSize Size); [|left; lia].
  destruct (Z.eqb_spec (Alignment mod ActualAlignment) 0) as [D|D].
  - right. left. destruct Strict; cbn in V; [|rewrite orb_true_r in V; discriminate]. split; [reflexivity|]. lia.
  - right. right. exists Alignment. unfold storage_ok, get_address. split; [apply Z.mod_same; lia|exact D].
Qed.
Example C71_example :
  validate 32 16 false 24 8 = true /\ validate 32 16 true 24 8 = false /\ validate 32 4 false 24 8 = false /\ storage_ok 16 4096.
Proof. repeat split; reflexivity. Qed.

(** C72. *)
(** Every fast_pimpl has seen constructor and destructor calls strictly alternating; the last one
    is a constructor exactly while the object is alive.  T's members are arbitrary and may throw. *)
Theorem C72_lifetimes_balance {V} tc tm ta tma ts tsm (h : list (op V)) w :
  run tc tm ta tma ts tsm world0 h = Ok w ->
  forall i, lives i (events i w) (match objs w i with Some _ => true | None => false end).
Proof.
  assert (G : forall h (w0 : world V), balanced w0 -> run tc tm ta tma ts tsm w0 h = Ok w -> balanced w).
  { induction h0 as [|o h0 IH]; intros w0 B E; cbn [run] in E; [inversion E; subst; exact B|].
    destruct (step tc tm ta tma ts tsm w0 o) as [[w1 b]| |] eqn:ES; cbn [bind] in E; try discriminate.
    apply (IH w1); [eapply step_balanced; [exact B|exact ES]|exact E]. }
  intros E i. apply (G h world0); [|exact E]. intros k. constructor.
Qed.
(** Operations on one object leave all others alone; a copy leaves its source alone and has its value. *)
Theorem C72_copies_independent {V} tc tm ta tma ts tsm (w w' : world V) b :
  (forall v x, tc v = Some x -> x = v) -> (forall d s x, ta d s = (x, true) -> x = s) -> (forall v x, ts v = (x, true) -> x = v) ->
  (forall i j, step tc tm ta tma ts tsm w (CopyConstruct i j) = Ok (w', b) ->
     (b = true -> objs w' i = objs w j) /\ forall k, k <> i -> objs w' k = objs w k) /\
  (forall i j, step tc tm ta tma ts tsm w (Assign i j) = Ok (w', b) ->
     (b = true -> objs w' i = objs w j) /\ forall k, k <> i -> objs w' k = objs w k) /\
  (forall i g, step tc tm ta tma ts tsm w (Mutate i g) = Ok (w', b) ->
     objs w' i = option_map g (objs w i) /\ forall k, k <> i -> objs w' k = objs w k) /\
  (forall i, step tc tm ta tma ts tsm w (Destroy i) = Ok (w', b) -> objs w' i = None /\ forall k, k <> i -> objs w' k = objs w k) /\
  (forall i v, step tc tm ta tma ts tsm w (Construct i v) = Ok (w', b) -> objs w' i = v /\ forall k, k <> i -> objs w' k = objs w k).
Proof.
  intros C A S. split; [|split; [|split; [|split]]].
  - intros i j E. cbn [step] in E. destruct (objs w i) eqn:OI; [discriminate|]. destruct (objs w j) eqn:OJ; [|discriminate].
    destruct (tc v) eqn:TC; inversion E; subst.
    + apply C in TC. subst v0. cbn [build objs]. split; [intros _; rewrite place_same; reflexivity|]. intros k N. apply place_other, N.
    + split; [discriminate|reflexivity].
  - intros i j E. cbn [step] in E. destruct (objs w i) eqn:OI; [|discriminate]. destruct (objs w j) eqn:OJ; [|discriminate].
    destruct (if Nat.eqb i j then ts v else ta v v0) as [x y] eqn:TA; inversion E; subst.
    cbn [objs]. split; [intros ->; rewrite place_same|intros k N; apply place_other, N]. destruct (Nat.eqb_spec i j) as [->|N].
    + apply S in TA. congruence.
    + apply A in TA. congruence.
  - intros i g E. cbn [step] in E. destruct (objs w i) eqn:OI; [|discriminate]. inversion E; subst. cbn [objs].
    split; [rewrite place_same; reflexivity|]. intros k N. apply place_other, N.
  - intros i E. cbn [step] in E. destruct (objs w i) eqn:OI; [|discriminate]. inversion E; subst. cbn [objs].
    split; [apply place_same|]. intros k N. apply place_other, N.
  - intros i v E. cbn [step] in E. destruct (objs w i) eqn:OI; [discriminate|]. destruct v; inversion E; subst.
    + cbn [build objs]. split; [apply place_same|]. intros k N. apply place_other, N.
    + split; [exact OI|reflexivity].
Qed.
(** A move touches only the two objects named, and the source stays an object. *)
Theorem C72_moves_touch_two {V} tc tm ta tma ts tsm (w w' : world V) b i j o :
  (o = MoveConstruct i j \/ o = MoveAssign i j) -> step tc tm ta tma ts tsm w o = Ok (w', b) ->
  (forall k, k <> i -> k <> j -> objs w' k = objs w k) /\ objs w' j <> None.
Proof.
  intros [-> | ->] E; cbn [step] in E.
  - destruct (objs w i) eqn:OI; [discriminate|]. destruct (objs w j) eqn:OJ; [|discriminate].
    assert (NIJ : j <> i) by congruence.
    destruct (tm v) as [[v1|] s1]; inversion E; subst; cbn [build objs].
    + split; [intros k N1 N2; rewrite place_other by exact N1; cbn [objs]; apply place_other, N2|].
      rewrite place_other by exact NIJ. cbn [objs]. rewrite place_same. discriminate.
    + split; [intros k _ N2; apply place_other, N2|]. rewrite place_same. discriminate.
  - destruct (objs w i) eqn:OI; [|discriminate]. destruct (objs w j) eqn:OJ; [|discriminate].
    destruct (Nat.eqb_spec i j) as [->|NIJ].
    + destruct (tsm v); inversion E; subst. cbn [objs].
      split; [intros k N1 _; apply place_other, N1|rewrite place_same; discriminate].
    + destruct (tma v v0) as [[d s] x]; inversion E; subst. cbn [objs].
      split; [intros k N1 N2; rewrite place_other by exact N1; cbn [objs]; apply place_other, N2|].
      rewrite place_other by congruence. cbn [objs]. rewrite place_same. discriminate.
Qed.
(** If T's moves hand the value over, so do those of fast_pimpl. *)
Theorem C72_moves_transfer {V} tc tm ta tma ts tsm (w w' : world V) :
  (forall v x y, tm v = (Some x, y) -> x = v) -> (forall d s x y, tma d s = (x, y, true) -> x = s) ->
  (forall i j, step tc tm ta tma ts tsm w (MoveConstruct i j) = Ok (w', true) ->
     objs w' i = objs w j /\ exists v, objs w j = Some v /\ objs w' j = Some (snd (tm v))) /\
  (forall i j, i <> j -> step tc tm ta tma ts tsm w (MoveAssign i j) = Ok (w', true) ->
     objs w' i = objs w j /\
     exists d s, objs w i = Some d /\ objs w j = Some s /\ objs w' j = Some (snd (fst (tma d s)))).
Proof.
  intros HM HA. split.
  - intros i j E. cbn [step] in E. destruct (objs w i) eqn:OI; [discriminate|]. destruct (objs w j) eqn:OJ; [|discriminate].
    assert (NIJ : j <> i) by congruence.
    destruct (tm v) as [[x|] y] eqn:TM; inversion E; subst. cbn [build objs]. pose proof (HM _ _ _ TM). subst x.
    split; [apply place_same|]. exists v. split; [reflexivity|]. rewrite TM.
    rewrite place_other by exact NIJ. cbn [objs]. apply place_same.
  - intros i j N E. cbn [step] in E. destruct (objs w i) eqn:OI; [|discriminate]. destruct (objs w j) eqn:OJ; [|discriminate].
    destruct (Nat.eqb_spec i j) as [->|NIJ]; [contradiction|].
    destruct (tma v v0) as [[x y] z] eqn:TM; inversion E; subst. cbn [objs]. pose proof (HA _ _ _ _ TM). subst x.
    split; [apply place_same|]. exists v, v0. split; [reflexivity|]. split; [reflexivity|]. rewrite TM.
    rewrite place_other by congruence. cbn [objs]. apply place_same.
Qed.
(** An operation left by an exception of T built and destroyed nothing: the same objects are alive,
    and no object other than the ones it names has changed; a construction from arguments or by
    copying has changed none at all. *)
Theorem C72_failure_builds_nothing {V} tc tm ta tma ts tsm (w w' : world V) o :
  step tc tm ta tma ts tsm w o = Ok (w', false) ->
  log w' = log w /\ (forall k, objs w' k = None <-> objs w k = None) /\
  match o with
  | Construct _ _ | CopyConstruct _ _ => forall k, objs w' k = objs w k
  | MoveConstruct _ j => forall k, k <> j -> objs w' k = objs w k
  | Assign i _ => forall k, k <> i -> objs w' k = objs w k
  | MoveAssign i j => forall k, k <> i -> k <> j -> objs w' k = objs w k
  | Destroy _ | Mutate _ _ => False
  end.
Proof.
  intros E. destruct o as [i v|i j|i j|i|i j|i j|i g]; cbn [step] in E.
  - destruct (objs w i); [discriminate|]. destruct v; inversion E; subst. repeat split; tauto.
  - destruct (objs w i) eqn:OI; [discriminate|]. destruct (objs w j) eqn:OJ; [|discriminate].
    destruct (tm v) as [[x|] y]; inversion E; subst. cbn [objs log]. split; [reflexivity|]. split.
    + intros k. destruct (Nat.eq_dec k j) as [->|N]; [rewrite place_same, OJ; split; discriminate|rewrite place_other by exact N; tauto].
    + intros k N. apply place_other, N.
  - destruct (objs w i) eqn:OI; [discriminate|]. destruct (objs w j) eqn:OJ; [|discriminate].
    destruct (tc v); inversion E; subst. repeat split; tauto.
  - destruct (objs w i); inversion E.
  - destruct (objs w i) eqn:OI; [|discriminate]. destruct (objs w j) eqn:OJ; [|discriminate].
    destruct (if Nat.eqb i j then ts v else ta v v0) as [x y]; inversion E; subst. cbn [objs log]. split; [reflexivity|]. split.
    + intros k. destruct (Nat.eq_dec k i) as [->|N]; [rewrite place_same, OI; split; discriminate|rewrite place_other by exact N; tauto].
    + intros k N. apply place_other, N.
  - destruct (objs w i) eqn:OI; [|discriminate]. destruct (objs w j) eqn:OJ; [|discriminate].
    destruct (Nat.eqb_spec i j) as [->|NIJ].
    + destruct (tsm v) as [x y]; inversion E; subst. cbn [objs log]. split; [reflexivity|]. split.
      * intros k. destruct (Nat.eq_dec k j) as [->|N]; [rewrite place_same, OI; split; discriminate|rewrite place_other by exact N; tauto].
      * intros k N _. apply place_other, N.
    + destruct (tma v v0) as [[x y] z]; inversion E; subst. cbn [objs log]. split; [reflexivity|]. split.
      * intros k. destruct (Nat.eq_dec k i) as [->|N]; [rewrite place_same, OI; split; discriminate|rewrite place_other by exact N; cbn [objs]].
        destruct (Nat.eq_dec k j) as [->|N2]; [rewrite place_same, OJ; split; discriminate|rewrite place_other by exact N2; tauto].
      * intros k N N2. rewrite place_other by exact N. cbn [objs]. apply place_other, N2.
  - destruct (objs w i); inversion E.
Qed.
(** Completed or not, the named objects hold what the contained type's own operation leaves in
    them, also when source and target are one object. *)
Theorem C72_values_left {V} tc tm ta tma ts tsm (w w' : world V) b :
  (forall i j s, objs w j = Some s -> step tc tm ta tma ts tsm w (MoveConstruct i j) = Ok (w', b) ->
     objs w' j = Some (snd (tm s)) /\ objs w' i = fst (tm s)) /\
  (forall i j d s, objs w i = Some d -> objs w j = Some s -> step tc tm ta tma ts tsm w (Assign i j) = Ok (w', b) ->
     (objs w' i, b) = if Nat.eqb i j then (Some (fst (ts d)), snd (ts d)) else (Some (fst (ta d s)), snd (ta d s))) /\
  (forall i j d s, objs w i = Some d -> objs w j = Some s -> step tc tm ta tma ts tsm w (MoveAssign i j) = Ok (w', b) ->
     if Nat.eqb i j then objs w' i = Some (fst (tsm d)) /\ b = snd (tsm d)
     else objs w' i = Some (fst (fst (tma d s))) /\ objs w' j = Some (snd (fst (tma d s))) /\ b = snd (tma d s)).
Proof.
  split; [|split].
  - intros i j s OJ E. cbn [step] in E. destruct (objs w i) eqn:OI; [discriminate|]. rewrite OJ in E. assert (N : j <> i) by congruence.
    destruct (tm s) as [[x|] y]; inversion E; subst; cbn [build objs fst snd].
    + rewrite place_same, place_other by exact N. cbn [objs]. rewrite place_same. auto.
    + rewrite place_same, place_other by congruence. auto.
  - intros i j d s OI OJ E. cbn [step] in E. rewrite OI, OJ in E. destruct (Nat.eqb i j).
    + destruct (ts d) as [x y]; inversion E; subst. cbn [objs]. rewrite place_same. reflexivity.
    + destruct (ta d s) as [x y]; inversion E; subst. cbn [objs]. rewrite place_same. reflexivity.
  - intros i j d s OI OJ E. cbn [step] in E. rewrite OI, OJ in E. destruct (Nat.eqb_spec i j) as [->|N].
    + destruct (tsm d) as [x y]; inversion E; subst. cbn [objs]. rewrite place_same. auto.
    + destruct (tma d s) as [[x y] z]; inversion E; subst. cbn [objs fst snd].
      rewrite place_same, place_other by congruence. cbn [objs]. rewrite place_same. auto.
Qed.
(** The only requirement: build where nothing lives, use what lives. *)
Theorem C72_defined_iff {V} tc tm ta tma ts tsm (w : world V) o :
  (exists w' b, step tc tm ta tma ts tsm w o = Ok (w', b)) <->
  match o with
  | Construct i _ => objs w i = None
  | MoveConstruct i j | CopyConstruct i j => objs w i = None /\ objs w j <> None
  | Destroy i | Mutate i _ => objs w i <> None
  | Assign i j | MoveAssign i j => objs w i <> None /\ objs w j <> None
  end.
Proof.
  destruct o; cbn [step]; (split;
    [intros (w' & b & E);
     repeat match type of E with context [match ?x with _ => _ end] => destruct x end; try discriminate;
     repeat split; discriminate || reflexivity
    |intros H; try match type of H with _ /\ _ => destruct H end;
     repeat match goal with |- context [match ?x with _ => _ end] => destruct x eqn:? end;
     try congruence; eexists; eexists; reflexivity]).
Qed.
Example C72_moves_example :
  let h := [Construct 0 (Some 5); MoveConstruct 1 0; Construct 2 (Some 7); MoveAssign 2 1] in
  match run Some (fun v => (Some v, 0)) (fun _ s => (s, true)) (fun _ s => (s, 0, true)) (fun v => (v, true)) (fun v => (v, true)) world0 h with
  | Ok w => objs w 0%nat = Some 0 /\ objs w 1%nat = Some 0 /\ objs w 2%nat = Some 5
  | _ => False
  end.
Proof. vm_compute. repeat split; reflexivity. Qed.
(** A T that zeroes what it is working on before it throws. *)
Example C72_failure_example :
  let st := step (fun v => if v =? 13 then None else Some v) (fun v => (None, 0)) (fun d s => if s =? 13 then (0, false) else (s, true))
                 (fun _ s => (0, 0, false)) (fun v => (v, true)) (fun v => (v, true)) in
  let w := World (fun i => nth i [Some 13; Some 5; None] None) [Built 1; Built 0] in
  (exists w', st w (CopyConstruct 2 0) = Ok (w', false)) /\
  (exists w', st w (Assign 1 0) = Ok (w', false) /\ objs w' 1%nat = Some 0) /\
  (exists w', st w (MoveAssign 1 0) = Ok (w', false) /\ objs w' 0%nat = Some 0).
Proof. vm_compute. repeat split; eexists; repeat split; reflexivity. Qed.
Example C72_example :
  let h := [Construct 0 (Some 5); CopyConstruct 1 0; Mutate 1 (fun v => v + 1); Construct 2 None; Assign 0 1; Destroy 1] in
  match run Some (fun v => (Some v, 0)) (fun _ s => (s, true)) (fun _ s => (s, 0, true)) (fun v => (v, true)) (fun v => (v, true)) world0 h with
  | Ok w => objs w 0%nat = Some 6 /\ objs w 1%nat = None /\ objs w 2%nat = None /\
            events 1 w = [Built 1; Died 1] /\ events 0 w = [Built 0] /\ events 2 w = []
  | _ => False
  end.
Proof. vm_compute. repeat split; reflexivity. Qed.

Print Assumptions C71_object_inside_storage.
Print Assumptions C71_refused_only_if_unsafe.
Print Assumptions C72_lifetimes_balance.
Print Assumptions C72_copies_independent.
Print Assumptions C72_moves_touch_two.
Print Assumptions C72_moves_transfer.
Print Assumptions C72_failure_builds_nothing.
Print Assumptions C72_values_left.
Print Assumptions C72_defined_iff.
