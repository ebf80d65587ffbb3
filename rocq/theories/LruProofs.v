(** Lemmas for the lru properties. *)
From Verif Require Export LruSpec.

Lemma firstn_in {A} n (l : list A) x : In x (firstn n l) -> In x l.
Proof. intros I. rewrite <- (firstn_skipn n l). apply in_or_app. left. exact I. Qed.
Lemma NoDup_firstn' {A} n (l : list A) : NoDup l -> NoDup (firstn n l).
Proof.
  revert n. induction l as [|x l IH]; intros [|n] N; cbn; try constructor; inversion N; subst.
  - intros I. apply firstn_in in I. contradiction.
  - apply IH. assumption.
Qed.
Lemma NoDup_app_comm_cons {A} (l : list A) k : ~ In k l /\ NoDup l -> NoDup (l ++ [k]).
Proof.
  intros (N & D). induction l as [|x l IH]; cbn; [constructor; [intros []|constructor]|].
  inversion D; subst. constructor.
  - rewrite in_app_iff. cbn [In] in *. intros [I|[->|[]]]; [contradiction|apply N; left; reflexivity].
  - apply IH; [intros I; apply N; right; exact I|assumption].
Qed.

Section P.
  Context {K V : Type} (keq : K -> K -> bool) (Size : nat) (Exc : bool).
  Hypothesis EQ : keq_ok keq.
  Hypothesis SZ : (0 < Size)%nat.
  Notation lkeys l := (map (@i_key K V) l).

  Lemma keq_refl k : keq k k = true.
  Proof. apply EQ. reflexivity. Qed.
  Lemma keq_false x y : keq x y = false <-> x <> y.
  Proof. destruct (keq x y) eqn:E; [apply EQ in E|]; split; intros; try congruence. intros ->. rewrite keq_refl in E. discriminate. Qed.
  Lemma existsb_in k l : existsb (fun x => keq x k) l = true <-> In k l.
  Proof.
    rewrite existsb_exists. split.
    - intros (x & I & E). apply EQ in E. subst x. exact I.
    - intros I. exists k. split; [exact I|apply keq_refl].
  Qed.

  Lemma map_find_set m k x k' : map_find (V:=V) keq (map_set keq m k x) k' = if keq k k' then Some x else map_find keq m k'.
  Proof.
    induction m as [|[j y] m IH]; cbn [map_set map_find].
    - destruct (keq k k'); reflexivity.
    - destruct (keq j k) eqn:E; cbn [map_find].
      + apply EQ in E. subst j. destruct (keq k k'); reflexivity.
      + rewrite IH. destruct (keq j k') eqn:E'; [|reflexivity].
        apply EQ in E'. subst k'. destruct (keq k j) eqn:E2; [|reflexivity]. apply EQ in E2. subst k. rewrite keq_refl in E. discriminate.
  Qed.
  Lemma map_set_keys_known m k x : map_find keq m k <> None -> map fst (map_set (V:=V) keq m k x) = map fst m.
  Proof.
    induction m as [|[j y] m IH]; cbn [map_find map_set]; [congruence|]. destruct (keq j k); intros N; [reflexivity|].
    cbn [map]. rewrite IH by exact N. reflexivity.
  Qed.
  Lemma map_set_keys_new m k x : map_find keq m k = None -> map fst (map_set (V:=V) keq m k x) = map fst m ++ [k].
  Proof.
    induction m as [|[j y] m IH]; cbn [map_find map_set]; [reflexivity|]. destruct (keq j k); intros N; [discriminate|].
    cbn [map app]. rewrite IH by exact N. reflexivity.
  Qed.
  Lemma map_find_in m k : In k (map fst m) <-> map_find (V:=V) keq m k <> None.
  Proof.
    induction m as [|[j y] m IH]; cbn [map_find map In fst]; [intuition congruence|].
    destruct (keq j k) eqn:E.
    - apply EQ in E. split; [discriminate|left; exact E].
    - apply keq_false in E. rewrite IH. intuition.
  Qed.

  Lemma split_key_some l k a x b : split_key (V:=V) keq l k = Some (a, x, b) -> l = a ++ x :: b /\ i_key x = k /\ ~ In k (lkeys a).
  Proof.
    revert a. induction l as [|y l IH]; cbn [split_key]; [discriminate|]. intros a. destruct (keq (i_key y) k) eqn:E.
    - intros [= <- <- <-]. apply EQ in E. cbn. auto.
    - destruct (split_key keq l k) as [[[a' y'] b']|]; [|discriminate]. intros [= <- <- <-].
      destruct (IH a' eq_refl) as (-> & HK & NI). cbn. apply keq_false in E. intuition.
  Qed.
  Lemma split_key_none l k : split_key (V:=V) keq l k = None -> ~ In k (lkeys l).
  Proof.
    induction l as [|y l IH]; cbn [split_key]; [intuition|]. destruct (keq (i_key y) k) eqn:E; [discriminate|].
    destruct (split_key keq l k) as [[[a' y'] b']|]; [discriminate|]. intros _. cbn. apply keq_false in E. specialize (IH eq_refl). intuition.
  Qed.

  Lemma removelast_map {A B} (f : A -> B) l : map f (removelast l) = removelast (map f l).
  Proof. induction l as [|x l IH]; [reflexivity|]. destruct l; [reflexivity|]. cbn [removelast map] in *. rewrite IH. reflexivity. Qed.
  Lemma removelast_firstn_len' {A} (l : list A) : removelast l = firstn (length l - 1) l.
  Proof. rewrite removelast_firstn_len. f_equal. lia. Qed.
  Lemma without_notin k l : ~ In k l -> without keq k l = l.
  Proof.
    induction l as [|x l IH]; [reflexivity|]. intros N. cbn. assert (keq x k = false) as -> by (apply keq_false; intros ->; apply N; left; reflexivity).
    cbn [negb]. f_equal. apply IH. intros I. apply N. right. exact I.
  Qed.
  Lemma without_split k a b : ~ In k a -> ~ In k b -> without keq k (a ++ k :: b) = a ++ b.
  Proof.
    intros NA NB. unfold without. rewrite filter_app. cbn [filter]. rewrite keq_refl. cbn [negb].
    fold (without keq k a). fold (without keq k b). rewrite !without_notin by assumption. reflexivity.
  Qed.

  (** The cache after history [h], as a whole. *)
  Record good (h : puts K V) (c : lru K V) : Prop := {
    g_nodup : NoDup (lkeys (list_ c));
    g_len : (length (list_ c) <= Size)%nat;
    g_map : forall k, map_find keq (map_ c) k = match first_put keq h k with Some (v, t) => Some (Item k v t) | None => None end;
    g_list : forall x, In x (list_ c) -> map_find keq (map_ c) (i_key x) = Some x;
    g_mapnodup : NoDup (map fst (map_ c))
  }.
  Lemma good_new : good [] lru_new.
  Proof. split; cbn; try constructor; try lia; try tauto. Qed.

  Lemma first_put_app h k v t k' : first_put (V:=V) keq (h ++ [(k, v, t)]) k' =
    match first_put keq h k' with Some p => Some p | None => if keq k k' then Some (v, t) else None end.
  Proof. induction h as [|[[j w] u] h IH]; cbn [app first_put]; [reflexivity|]. destruct (keq j k'); [reflexivity|exact IH]. Qed.
  Lemma first_put_in h k : In k (keys_put (V:=V) h) <-> first_put keq h k <> None.
  Proof.
    unfold keys_put. induction h as [|[[j w] u] h IH]; cbn [map In first_put fst]; [intuition congruence|].
    destruct (keq j k) eqn:E; [apply EQ in E; split; [discriminate|auto]|]. apply keq_false in E. rewrite IH. intuition.
  Qed.

  (** One step of [ideal]. *)
  Definition ideal_step (l seen : list K) (k : K) : list K :=
    if existsb (fun x => keq x k) seen then
      if existsb (fun x => keq x k) l then k :: without keq k l else l
    else firstn Size (k :: l).

  Lemma put_good h c k v t : good h c ->
    exists c', put keq Size Exc c k v t =
        Ok (c', if match first_put keq h k with Some _ => negb (existsb (fun x => keq x k) (lkeys (list_ c))) | None => false end
                then (if Exc then ThrewMissed else Returned) else Returned) /\
      good (h ++ [(k, v, t)]) c' /\
      lkeys (list_ c') = ideal_step (lkeys (list_ c)) (keys_put h) k.
  Proof.
    intros G. unfold put. rewrite (g_map _ _ G). unfold ideal_step.
    destruct (first_put keq h k) as [[v0 t0]|] eqn:FP.
    - assert (SE : existsb (fun x => keq x k) (keys_put h) = true) by (apply existsb_in, first_put_in; congruence). rewrite SE.
      assert (FA : forall k', first_put keq (h ++ [(k, v, t)]) k' = first_put keq h k').
      { intros k'. rewrite first_put_app. destruct (first_put keq h k') eqn:E; [reflexivity|].
        destruct (keq k k') eqn:E'; [|reflexivity]. apply EQ in E'. congruence. }
      destruct (split_key keq (list_ c) k) as [[[a x] b]|] eqn:SK.
      + apply split_key_some in SK. destruct SK as (EL & EK & NA).
        pose proof (g_nodup _ _ G) as ND. rewrite EL, map_app in ND. cbn [map] in ND. rewrite EK in ND.
        assert (NB : ~ In k (lkeys b)).
        { intros I. apply NoDup_remove_2 in ND. apply ND, in_or_app. right. exact I. }
        assert (IL : existsb (fun x => keq x k) (lkeys (list_ c)) = true).
        { apply existsb_in. rewrite EL, map_app. apply in_or_app. right. left. exact EK. }
        rewrite IL. cbn [negb]. eexists. split; [reflexivity|].
        assert (MX : map_find keq (map_ c) k = Some x).
        { rewrite <- EK. apply (g_list _ _ G). rewrite EL. apply in_or_app. right. left. reflexivity. }
        assert (MS : forall k', map_find keq (map_set keq (map_ c) k x) k' = map_find keq (map_ c) k').
        { intros k'. rewrite map_find_set. destruct (keq k k') eqn:E; [|reflexivity]. apply EQ in E. congruence. }
        split.
        * split; cbn [list_ map_].
          -- cbn [map]. rewrite EK, map_app. constructor; [intros I; apply in_app_or in I; tauto|].
             apply NoDup_remove_1 in ND. exact ND.
          -- pose proof (g_len _ _ G) as LE. rewrite EL, app_length in LE. cbn [length] in *. rewrite app_length. lia.
          -- intros k'. rewrite MS, FA. apply (g_map _ _ G).
          -- intros y Hy. rewrite MS. apply (g_list _ _ G). rewrite EL.
             destruct Hy as [<-|Hy]; [apply in_or_app; right; left; reflexivity|].
             apply in_app_or in Hy. apply in_or_app. cbn [In]. tauto.
          -- rewrite map_set_keys_known by congruence. apply (g_mapnodup _ _ G).
        * cbn [list_ map]. rewrite EL, !map_app. cbn [map]. rewrite EK, without_split by assumption. reflexivity.
      + apply split_key_none in SK.
        assert (IL : existsb (fun x => keq x k) (lkeys (list_ c)) = false).
        { destruct (existsb (fun x => keq x k) (lkeys (list_ c))) eqn:E; [|reflexivity]. apply existsb_in in E. contradiction. }
        rewrite IL. cbn [negb]. eexists. split; [reflexivity|]. split; [|reflexivity].
        destruct G as [G1 G2 G3 G4 G5]. split; try assumption. intros k'. rewrite FA. apply G3.
    - assert (SE : existsb (fun x => keq x k) (keys_put h) = false).
      { destruct (existsb (fun x => keq x k) (keys_put h)) eqn:E; [|reflexivity]. apply existsb_in, first_put_in in E. congruence. }
      rewrite SE.
      assert (NK : forall x, In x (list_ c) -> i_key x <> k).
      { intros x I E. pose proof (g_list _ _ G x I) as F. rewrite E, (g_map _ _ G), FP in F. discriminate. }
      assert (FIN : forall l, (forall x, In x l -> In x (list_ c)) -> NoDup (lkeys l) -> (length l < Size)%nat ->
                    good (h ++ [(k, v, t)]) (Lru (Item k v t :: l) (map_set keq (map_ c) k (Item k v t)))).
      { intros l IL ND LL. split; cbn [list_ map_].
        - cbn [map i_key]. constructor; [|exact ND]. intros I. apply in_map_iff in I. destruct I as (x & E & I). apply (NK x (IL x I) E).
        - cbn [length]. lia.
        - intros k'. rewrite map_find_set, first_put_app, (g_map _ _ G). destruct (keq k k') eqn:E.
          + apply EQ in E. subst k'. rewrite FP. reflexivity.
          + destruct (first_put keq h k') as [[? ?]|]; reflexivity.
        - intros x [<-|I].
          + cbn [i_key]. rewrite map_find_set, keq_refl. reflexivity.
          + rewrite map_find_set. destruct (keq k (i_key x)) eqn:E; [apply EQ in E; exfalso; apply (NK x (IL x I)); congruence|].
            apply (g_list _ _ G), IL, I.
        - assert (MN : map_find keq (map_ c) k = None) by (rewrite (g_map _ _ G), FP; reflexivity).
          rewrite map_set_keys_new by exact MN.
          apply NoDup_app_comm_cons. split; [intros I; apply map_find_in in I; congruence|apply (g_mapnodup _ _ G)]. }
      destruct (Nat.leb_spec Size (length (list_ c))) as [L|L].
      + pose proof (g_len _ _ G) as LE.
        destruct (list_ c) as [|x0 l0] eqn:EL; [cbn in L; lia|]. rewrite <- EL in *. cbn [bind].
        eexists. split; [reflexivity|]. rewrite removelast_firstn_len'. split.
        * apply FIN.
          -- intros x I. apply (firstn_in _ _ _ I).
          -- rewrite <- firstn_map. apply NoDup_firstn', (g_nodup _ _ G).
          -- rewrite firstn_length. lia.
        * cbn [list_ map i_key]. rewrite <- firstn_map. destruct Size as [|S']; [lia|]. cbn [firstn]. do 2 f_equal. lia.
      + cbn [bind]. eexists. split; [reflexivity|]. split.
        * apply FIN; [tauto|apply (g_nodup _ _ G)|exact L].
        * cbn [list_ map i_key]. symmetry. apply firstn_all2. cbn [length]. rewrite map_length. lia.
  Qed.

  Lemma ideal_unfold l seen k v t h : ideal (V:=V) keq Size l seen ((k, v, t) :: h) =
    ideal keq Size (ideal_step l seen k) (if existsb (fun x => keq x k) seen then seen else k :: seen) h.
  Proof. cbn [ideal]. unfold ideal_step. destruct (existsb _ seen); [destruct (existsb _ l)|]; reflexivity. Qed.
  Lemma existsb_same (A B : list K) k : (forall x, In x A <-> In x B) -> existsb (fun x => keq x k) A = existsb (fun x => keq x k) B.
  Proof.
    intros E. destruct (existsb (fun x => keq x k) A) eqn:EA; symmetry.
    - apply existsb_in, E, existsb_in, EA.
    - destruct (existsb (fun x => keq x k) B) eqn:EB; [|reflexivity]. apply existsb_in, E, existsb_in in EB. congruence.
  Qed.

  Lemma run_good h' : forall h c seen, good h c -> (forall k, In k seen <-> In k (keys_put h)) ->
    exists c', run_puts keq Size Exc c h' = Ok c' /\ good (h ++ h') c' /\
      lkeys (list_ c') = ideal keq Size (lkeys (list_ c)) seen h'.
  Proof.
    induction h' as [|[[k v] t] h' IH]; intros h c seen G SE.
    - exists c. rewrite app_nil_r. split; [reflexivity|]. split; [exact G|reflexivity].
    - destruct (put_good h c k v t G) as (c1 & E1 & G1 & L1). cbn [run_puts]. rewrite E1. cbn [bind].
      destruct (IH (h ++ [(k, v, t)]) c1 (if existsb (fun x => keq x k) seen then seen else k :: seen) G1) as (c2 & E2 & G2 & L2).
      { intros j. unfold keys_put. rewrite map_app. cbn [map fst]. rewrite in_app_iff. cbn [In].
        fold (keys_put h). destruct (existsb (fun x => keq x k) seen) eqn:EX.
        - rewrite SE. split; [tauto|]. intros [I|[->|[]]]; [exact I|]. apply SE. apply existsb_in. exact EX.
        - cbn [In]. rewrite SE. tauto. }
      exists c2. split; [exact E2|]. rewrite <- app_assoc in G2. split; [exact G2|].
      rewrite L2, ideal_unfold, L1. unfold ideal_step. rewrite (existsb_same _ _ k SE). reflexivity.
  Qed.
  Lemma run_from_new h : exists c, run_puts keq Size Exc lru_new h = Ok c /\ good h c /\ lkeys (list_ c) = ideal keq Size [] [] h.
  Proof. apply (run_good h [] lru_new [] good_new). intros k. reflexivity. Qed.
End P.
