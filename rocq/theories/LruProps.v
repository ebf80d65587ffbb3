(** Properties C78-C81: cache/lru.hpp. *)
From Verif Require Import LruProofs.

(** C78. *)
Theorem C78_recency_list {K V} (keq : K -> K -> bool) Size Exc (h : puts K V) :
  keq_ok keq -> (0 < Size)%nat ->
  exists c, run_puts keq Size Exc lru_new h = Ok c /\
    NoDup (map i_key (list_ c)) /\ (length (list_ c) <= Size)%nat /\
    map i_key (list_ c) = ideal keq Size [] [] h.
Proof.
  intros EQ SZ. destruct (run_from_new keq Size Exc EQ SZ h) as (c & E & G & L). exists c.
  split; [exact E|]. split; [apply (g_nodup _ _ _ _ G)|]. split; [apply (g_len _ _ _ _ G)|exact L].
Qed.
(** A put of a new or still listed key makes it the most recent one, and pushes out only the
    last entry, only when the list is full and the key new. *)
Theorem C78_put_moves_to_front {K V} (keq : K -> K -> bool) Size Exc (h : puts K V) c k v t :
  keq_ok keq -> (0 < Size)%nat -> run_puts keq Size Exc lru_new h = Ok c -> ~ evicted keq Size h k ->
  exists c', put keq Size Exc c k v t = Ok (c', Returned) /\
    let before := map i_key (list_ c) in
    let after := map i_key (list_ c') in
    hd_error after = Some k /\
    (In k before -> forall j, In j after <-> In j before) /\
    (~ In k before -> after = k :: if (length before <? Size)%nat then before else removelast before).
Proof.
  intros EQ SZ E NE. destruct (run_from_new keq Size Exc EQ SZ h) as (c0 & E0 & G & L). rewrite E in E0. inversion E0; subst c0; clear E0.
  destruct (put_good keq Size Exc EQ SZ h c k v t G) as (c' & E1 & G1 & L1). exists c'. rewrite E1.
  destruct (existsb (fun x => keq x k) (map i_key (list_ c))) eqn:IN.
  - assert (I : In k (map i_key (list_ c))) by (apply (existsb_in keq EQ), IN).
    assert (SN : existsb (fun x => keq x k) (keys_put h) = true).
    { apply (existsb_in keq EQ), (first_put_in keq EQ). apply in_map_iff in I. destruct I as (x & <- & I).
      pose proof (g_list _ _ _ _ G x I) as F. rewrite (g_map _ _ _ _ G) in F. destruct (first_put keq h (i_key x)); discriminate. }
    split; [destruct (first_put keq h k); reflexivity|]. cbv zeta. rewrite L1. unfold ideal_step. rewrite SN, IN.
    split; [reflexivity|]. split; [|tauto]. intros _ j. cbn [In]. unfold without. rewrite filter_In.
    split; [intros [<-|(H & _)]; assumption|]. intros J. destruct (keq j k) eqn:JK; [left; symmetry; apply EQ, JK|right; split; [exact J|reflexivity]].
  - assert (NI : ~ In k (map i_key (list_ c))) by (intros I; apply (existsb_in keq EQ) in I; congruence).
    assert (F : first_put keq h k = None).
    { destruct (first_put keq h k) eqn:F; [|reflexivity]. exfalso. apply NE. split.
      - apply (first_put_in keq EQ). congruence.
      - rewrite <- L. exact NI. }
    rewrite F. split; [reflexivity|]. cbv zeta. rewrite L1. unfold ideal_step.
    assert (SN : existsb (fun x => keq x k) (keys_put h) = false).
    { destruct (existsb (fun x => keq x k) (keys_put h)) eqn:SN; [|reflexivity]. apply (existsb_in keq EQ), (first_put_in keq EQ) in SN. congruence. }
    rewrite SN. destruct Size as [|n]; [lia|]. cbn [firstn]. split; [reflexivity|]. split; [tauto|]. intros _. f_equal.
    pose proof (g_len _ _ _ _ G) as LE. rewrite <- (map_length i_key) in LE.
    destruct (Nat.ltb_spec (length (map i_key (list_ c))) (S n)) as [B|B]; [apply firstn_all2; lia|].
    rewrite (removelast_firstn_len' (S n)) by lia. f_equal. lia.
Qed.
(** With Size = 0 the first put pops from an empty list. *)
Theorem C78_size_zero {K V} (keq : K -> K -> bool) Exc (k : K) (v : V) t : put keq 0 Exc lru_new k v t = UB.
Proof. reflexivity. Qed.
Example C78_example :
  match run_puts Nat.eqb 3 true lru_new [(1%nat, 10, 0); (2%nat, 20, 1); (3%nat, 30, 2); (1%nat, 11, 3); (4%nat, 40, 4)] with
  | Ok c => map i_key (list_ c) = [4; 1; 3]%nat
  | _ => False
  end.
Proof. vm_compute. reflexivity. Qed.

(** C79.  The table holds every key ever put. *)
Theorem C79_table_never_shrinks_refuted {K V} (keq : K -> K -> bool) Size Exc (h : puts K V) c :
  keq_ok keq -> (0 < Size)%nat -> run_puts keq Size Exc lru_new h = Ok c ->
  NoDup (map fst (map_ c)) /\ forall k, In k (map fst (map_ c)) <-> In k (keys_put h).
Proof.
  intros EQ SZ E. destruct (run_from_new keq Size Exc EQ SZ h) as (c0 & E0 & G & L). rewrite E in E0. inversion E0; subst c0.
  split; [apply (g_mapnodup _ _ _ _ G)|]. intros k. rewrite (map_find_in keq EQ), (g_map _ _ _ _ G), (first_put_in keq EQ).
  destruct (first_put keq h k) as [[? ?]|]; intuition congruence.
Qed.
(** So n distinct keys leave n entries in the table, for every n. *)
Theorem C79_table_unbounded_refuted {K V} (keq : K -> K -> bool) Size Exc (h : puts K V) c :
  keq_ok keq -> (0 < Size)%nat -> NoDup (keys_put h) -> run_puts keq Size Exc lru_new h = Ok c ->
  length (map_ c) = length h /\ length (list_ c) = Nat.min Size (length h).
Proof.
  intros EQ SZ ND E. destruct (C79_table_never_shrinks_refuted keq Size Exc h c EQ SZ E) as (N & S). split.
  - rewrite <- (map_length fst (map_ c)). replace (length h) with (length (keys_put h)) by apply map_length.
    apply Nat.le_antisymm; apply NoDup_incl_length; try assumption; intros k I; apply S; exact I.
  - destruct (run_from_new keq Size Exc EQ SZ h) as (c0 & E0 & G & L). rewrite E in E0. inversion E0; subst c0.
    rewrite <- (map_length i_key), L.
    assert (IL : forall (g : puts K V) l seen, NoDup (keys_put g) -> (forall k, In k (keys_put g) -> ~ In k seen) ->
              (length l <= Size)%nat -> length (ideal keq Size l seen g) = Nat.min Size (length l + length g)).
    { induction g as [|[[k v] t] g IH]; intros l seen NG NS LL; [cbn; lia|]. rewrite ideal_unfold.
      assert (X : existsb (fun x => keq x k) seen = false).
      { destruct (existsb (fun x => keq x k) seen) eqn:X; [|reflexivity]. apply (existsb_in keq EQ) in X. exfalso. apply (NS k); [left; reflexivity|exact X]. }
      unfold ideal_step. rewrite X. inversion NG; subst.
      rewrite IH; [rewrite firstn_length; cbn [length]; lia|assumption| |rewrite firstn_length; lia].
      intros j I [<-|I']; [contradiction|]. apply (NS j); [right; exact I|exact I']. }
    rewrite IL; [reflexivity|exact ND|intros k _ []|cbn; lia].
Qed.
(** Putting an evicted key again is refused (or silently dropped) and changes nothing. *)
Theorem C79_evicted_key_refused_refuted {K V} (keq : K -> K -> bool) Size Exc (h : puts K V) c k v t :
  keq_ok keq -> (0 < Size)%nat -> run_puts keq Size Exc lru_new h = Ok c -> evicted keq Size h k ->
  put keq Size Exc c k v t = Ok (c, if Exc then ThrewMissed else Returned).
Proof.
  intros EQ SZ E (I & NI). destruct (run_from_new keq Size Exc EQ SZ h) as (c0 & E0 & G & L). rewrite E in E0. inversion E0; subst c0.
  rewrite <- L in NI. unfold put. rewrite (g_map _ _ _ _ G). apply (first_put_in keq EQ) in I.
  destruct (first_put keq h k) as [[v0 t0]|]; [|congruence].
  destruct (split_key keq (list_ c) k) as [[[a x] b]|] eqn:SK; [|reflexivity].
  apply (split_key_some keq EQ) in SK. destruct SK as (EL & EK & _). exfalso. apply NI. rewrite EL, map_app. apply in_or_app. right. left. exact EK.
Qed.
(** Eviction is for ever. *)
Theorem C79_eviction_permanent_refuted {K V} (keq : K -> K -> bool) Size (h h' : puts K V) k :
  keq_ok keq -> evicted keq Size h k -> evicted keq Size (h ++ h') k.
Proof.
  intros EQ (I & NI).
  assert (W : forall (g : puts K V) l seen, In k seen -> ~ In k l -> ~ In k (ideal keq Size l seen g)).
  { induction g as [|[[j v] t] g IH]; intros l seen S N; [exact N|]. rewrite ideal_unfold. apply IH.
    - destruct (existsb _ seen); [exact S|right; exact S].
    - unfold ideal_step. destruct (existsb (fun x => keq x j) seen) eqn:X.
      + destruct (existsb (fun x => keq x j) l) eqn:Y; [|exact N]. apply (existsb_in keq EQ) in Y. intros [->|J]; [contradiction|].
        apply filter_In in J. tauto.
      + intros J. apply firstn_in in J. destruct J as [->|J]; [|contradiction]. apply (existsb_in keq EQ) in S. congruence. }
  assert (A : forall (g : puts K V) l seen, (In k (keys_put g) \/ In k seen) -> ~ In k (ideal keq Size l seen g) ->
              ~ In k (ideal keq Size l seen (g ++ h'))).
  { induction g as [|[[j v] t] g IH]; intros l seen S N.
    - apply W; [destruct S as [[]|S]; exact S|exact N].
    - cbn [app]. rewrite ideal_unfold in *. apply IH; [|exact N].
      destruct S as [[<-|S]|S]; [right|left; exact S|right].
      + destruct (existsb (fun x => keq x j) seen) eqn:X; [apply (existsb_in keq EQ), X|left; reflexivity].
      + destruct (existsb _ seen); [exact S|right; exact S]. }
  split; [unfold keys_put; rewrite map_app; apply in_or_app; left; exact I|]. apply A; [left; exact I|exact NI].
Qed.
Example C79_example :
  let h := [(1%nat, 10, 0); (2%nat, 20, 1); (3%nat, 30, 2)] in
  evicted Nat.eqb 2 h 1%nat /\
  match run_puts Nat.eqb 2 true lru_new h with
  | Ok c => length (map_ c) = 3%nat /\ put Nat.eqb 2 true c 1%nat 11 3 = Ok (c, ThrewMissed)
  | _ => False
  end.
Proof. cbv zeta. split; [split; vm_compute; intuition congruence|]. vm_compute. auto. Qed.

(** C80.  The value (and time) of a key is the one of its first put, whatever is put later. *)
Theorem C80_first_value_sticks_refuted {K V} (keq : K -> K -> bool) Size Exc (h : puts K V) c k v t :
  keq_ok keq -> (0 < Size)%nat -> run_puts keq Size Exc lru_new h = Ok c -> first_put keq h k = Some (v, t) ->
  map_find keq (map_ c) k = Some (Item k v t) /\
  forall x, In x (list_ c) -> i_key x = k -> x = Item k v t.
Proof.
  intros EQ SZ E F. destruct (run_from_new keq Size Exc EQ SZ h) as (c0 & E0 & G & L). rewrite E in E0. inversion E0; subst c0.
  assert (M : map_find keq (map_ c) k = Some (Item k v t)) by (rewrite (g_map _ _ _ _ G), F; reflexivity).
  split; [exact M|]. intros x I EK. pose proof (g_list _ _ _ _ G x I) as X. rewrite EK in X. congruence.
Qed.
Theorem C80_put_keeps_old_value_refuted {K V} (keq : K -> K -> bool) Size Exc (h : puts K V) c k v t v' t' c' o :
  keq_ok keq -> (0 < Size)%nat -> run_puts keq Size Exc lru_new h = Ok c -> first_put keq h k = Some (v, t) ->
  put keq Size Exc c k v' t' = Ok (c', o) -> map_find keq (map_ c') k = Some (Item k v t).
Proof.
  intros EQ SZ E F P. eapply (C80_first_value_sticks_refuted keq Size Exc (h ++ [(k, v', t')]) c' k v t EQ SZ).
  - assert (R : forall g d, run_puts keq Size Exc d (g ++ [(k, v', t')]) = bind (run_puts keq Size Exc d g) (fun e => run_puts keq Size Exc e [(k, v', t')])).
    { induction g as [|[[j w] u] g IH]; intros d; [reflexivity|]. cbn [app run_puts]. destruct (put keq Size Exc d j w u) as [[d' o']| |]; [|reflexivity|reflexivity]. apply IH. }
    rewrite R, E. cbn [bind run_puts]. rewrite P. reflexivity.
  - rewrite (first_put_app keq), F. reflexivity.
Qed.
Example C80_example :
  match run_puts Nat.eqb 2 true lru_new [(1%nat, 10, 0); (2%nat, 20, 1); (1%nat, 99, 2)] with
  | Ok c => map_find Nat.eqb (map_ c) 1%nat = Some (Item 1%nat 10 0) /\ map i_value (list_ c) = [10; 20]
  | _ => False
  end.
Proof. vm_compute. auto. Qed.

(** C81.  get: the empty optional for a key never put; the timeout once the first put of the key
    is expired_after old; undefined behaviour otherwise.  It never returns a value. *)
Theorem C81_get_exact_refuted {K V} (keq : K -> K -> bool) Size Exc expired_after (h : puts K V) c k now :
  keq_ok keq -> (0 < Size)%nat -> run_puts keq Size Exc lru_new h = Ok c ->
  get keq Exc expired_after c k now =
  match first_put keq h k with
  | None => Ok Nothing
  | Some (_, t) => if expired_after <=? now - t then Ok (if Exc then ThrewTimeout else Nothing) else UB
  end.
Proof.
  intros EQ SZ E. destruct (run_from_new keq Size Exc EQ SZ h) as (c0 & E0 & G & L). rewrite E in E0. inversion E0; subst c0.
  unfold get. rewrite (g_map _ _ _ _ G). destruct (first_put keq h k) as [[v t]|]; reflexivity.
Qed.
Theorem C81_never_a_value_refuted {K V} (keq : K -> K -> bool) Exc expired_after (c : lru K V) k now x :
  get keq Exc expired_after c k now <> Ok (Got x).
Proof. unfold get. destruct (map_find keq (map_ c) k); [destruct (_ <=? _); [destruct Exc|]|]; discriminate. Qed.
Example C81_example :
  match run_puts Nat.eqb 2 true lru_new [(1%nat, 10, 0)] with
  | Ok c => get Nat.eqb true 100 c 1%nat 50 = UB /\ get Nat.eqb true 100 c 1%nat 100 = Ok ThrewTimeout /\
            get Nat.eqb true 100 c 2%nat 50 = Ok Nothing
  | _ => False
  end.
Proof. vm_compute. auto. Qed.

Print Assumptions C78_recency_list.
Print Assumptions C78_put_moves_to_front.
Print Assumptions C78_size_zero.
Print Assumptions C79_table_never_shrinks_refuted.
Print Assumptions C79_table_unbounded_refuted.
Print Assumptions C79_evicted_key_refused_refuted.
Print Assumptions C79_eviction_permanent_refuted.
Print Assumptions C80_first_value_sticks_refuted.
Print Assumptions C80_put_keeps_old_value_refuted.
Print Assumptions C81_get_exact_refuted.
Print Assumptions C81_never_a_value_refuted.
