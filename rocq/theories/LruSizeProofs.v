(** Lemmas comparing lru caches of different Size. *)
From Verif Require Export LruSizeSpec LruProofs.

Lemma part_in {A} (a b : list A) x : part_of a b -> In x a -> In x b.
Proof. induction 1 as [|y a b P IH|y a b P IH]; intros I; [exact I|right; auto|destruct I as [->|I]; [left; reflexivity|right; auto]]. Qed.
Lemma part_nil_l {A} (b : list A) : part_of [] b.
Proof. induction b; [constructor|apply part_skip; assumption]. Qed.
Lemma part_refl {A} (b : list A) : part_of b b.
Proof. induction b; [constructor|apply part_keep; assumption]. Qed.
Lemma part_filter {A} (f : A -> bool) a b : part_of a b -> part_of (filter f a) (filter f b).
Proof.
  induction 1 as [|y a b P IH|y a b P IH]; cbn [filter]; [constructor| |]; destruct (f y); try (apply part_skip; exact IH); try exact IH.
  apply part_keep, IH.
Qed.
Lemma part_init {A} (a b : list A) : part_of a b -> part_of (removelast a) b.
Proof.
  induction 1 as [|y a b P IH|y a b P IH]; [constructor|apply part_skip, IH|].
  destruct a as [|z a]; [cbn; apply part_nil_l|]. apply part_keep. exact IH.
Qed.
Lemma part_removelast {A} (a b : list A) : part_of a b -> part_of (removelast a) (removelast b).
Proof.
  induction 1 as [|y a b P IH|y a b P IH]; [constructor| |].
  - destruct b as [|z b]; [inversion P; constructor|]. change (removelast (y :: z :: b)) with (y :: removelast (z :: b)). apply part_skip, IH.
  - destruct a as [|x a]; [cbn; apply part_nil_l|]. destruct b as [|z b]; [inversion P|].
    change (removelast (y :: z :: b)) with (y :: removelast (z :: b)). change (removelast (y :: x :: a)) with (y :: removelast (x :: a)). apply part_keep, IH.
Qed.
Lemma firstn_full {A} (k : A) l n : length l = n -> (0 < n)%nat -> firstn n (k :: l) = k :: removelast l.
Proof.
  intros L P. rewrite removelast_firstn_len. destruct n as [|n]; [lia|]. cbn [firstn]. rewrite L. reflexivity.
Qed.

Lemma nodup_front {A} (p q : list A) : NoDup (p ++ q) -> NoDup p.
Proof.
  induction p as [|x p IH]; cbn [app]; intros N; [constructor|]. inversion N as [|y l NI ND]; subst. constructor; [|apply IH, ND].
  intros I. apply NI, in_or_app. left. exact I.
Qed.

Lemma filter_le {A} (f : A -> bool) l : (length (filter f l) <= length l)%nat.
Proof. induction l as [|x l IH]; cbn [filter length]; [lia|]. destruct (f x); cbn [length]; lia. Qed.

Section Two.
  Context {K : Type} (keq : K -> K -> bool).
  Hypothesis EQ : keq_ok keq.
  Variables n m : nat.
  Hypothesis N0 : (0 < n)%nat.
  Hypothesis NM : (n <= m)%nat.

  Definition both (a b : list K) : Prop :=
    NoDup a /\ NoDup b /\ (length b <= m)%nat /\ ((length a < n)%nat /\ a = b \/ length a = n /\ part_of a b).
  Lemma both_part a b : both a b -> part_of a b.
  Proof. intros (_ & _ & _ & [[_ ->]|[_ P]]); [apply part_refl|exact P]. Qed.
  Lemma moved_length l k : NoDup l -> In k l -> length (k :: without keq k l) = length l.
  Proof.
    intros ND I. apply in_split in I. destruct I as (p & q & ->). pose proof (NoDup_remove_2 _ _ _ ND) as NI.
    rewrite (without_split keq EQ) by (intros I; apply NI, in_or_app; auto). cbn [length]. rewrite !app_length. cbn. lia.
  Qed.
  Lemma moved_nodup l k : NoDup l -> NoDup (k :: without keq k l).
  Proof.
    intros ND. constructor; [|apply NoDup_filter, ND]. intros I. apply filter_In in I. destruct I as [_ I]. rewrite (keq_refl keq EQ) in I. discriminate.
  Qed.
  Lemma both_step a b seen k : both a b -> (forall x, In x b -> In x seen) ->
    both (ideal_step keq n a seen k) (ideal_step keq m b seen k).
  Proof.
    intros (NA & NB & LB & C) SB. unfold ideal_step. destruct (existsb (fun x => keq x k) seen) eqn:SE.
    - destruct C as [[L ->]|[L P]].
      + destruct (existsb (fun x => keq x k) b) eqn:EB; [|split; auto].
        apply (existsb_in keq EQ) in EB. unfold both. rewrite moved_length by assumption.
        split; [apply moved_nodup, NB|]. split; [apply moved_nodup, NB|]. auto.
      + destruct (existsb (fun x => keq x k) b) eqn:EB.
        * apply (existsb_in keq EQ) in EB. pose proof (moved_length b k NB EB) as LB2.
          destruct (existsb (fun x => keq x k) a) eqn:EA.
          -- apply (existsb_in keq EQ) in EA. unfold both. rewrite !moved_length by assumption.
             split; [apply moved_nodup, NA|]. split; [apply moved_nodup, NB|]. split; [exact LB|]. right. split; [exact L|]. apply part_keep, part_filter, P.
          -- unfold both. split; [exact NA|]. split; [apply moved_nodup, NB|]. split; [lia|]. right. split; [exact L|].
             assert (NI : ~ In k a) by (intros I; apply (existsb_in keq EQ) in I; congruence).
             rewrite <- (without_notin keq EQ k a NI). apply part_skip, part_filter, P.
        * destruct (existsb (fun x => keq x k) a) eqn:EA.
          -- apply (existsb_in keq EQ) in EA. exfalso. apply (part_in a b k P) in EA. apply (existsb_in keq EQ) in EA. congruence.
          -- split; [exact NA|]. split; [exact NB|]. split; [exact LB|]. right. split; [exact L|exact P].
    - assert (NI : ~ In k b) by (intros I; apply SB in I; apply (existsb_in keq EQ) in I; congruence).
      assert (NIA : ~ In k a) by (intros I; apply NI; destruct C as [[_ ->]|[_ P]]; [exact I|exact (part_in a b k P I)]).
      unfold both. split; [apply NoDup_firstn'; constructor; assumption|]. split; [apply NoDup_firstn'; constructor; assumption|].
      split; [rewrite firstn_length; lia|]. destruct C as [[L ->]|[L P]].
      + rewrite !firstn_all2 by (cbn [length]; lia). cbn [length].
        destruct (Nat.eq_dec (S (length b)) n); [right; split; [assumption|apply part_refl]|left; split; [lia|reflexivity]].
      + right. split; [rewrite firstn_length; cbn [length]; lia|]. rewrite (firstn_full k a n L N0).
        destruct (Nat.eq_dec (length b) m) as [LM|LM].
        * rewrite (firstn_full k b m LM) by lia. apply part_keep, part_removelast, P.
        * rewrite firstn_all2 by (cbn [length]; lia). apply part_keep, part_init, P.
  Qed.
  Lemma step_seen s (l seen : list K) k x : (forall x, In x l -> In x seen) -> In x (ideal_step keq s l seen k) ->
    In x (if existsb (fun x => keq x k) seen then seen else k :: seen).
  Proof.
    intros SL. unfold ideal_step. destruct (existsb (fun x => keq x k) seen) eqn:SE.
    - destruct (existsb (fun x => keq x k) l) eqn:EL; [|apply SL]. intros [<-|I]; [apply (existsb_in keq EQ), SE|].
      apply filter_In in I. apply SL, I.
    - intros I. apply firstn_in in I. destruct I as [->|I]; [left; reflexivity|right; apply SL, I].
  Qed.
  Lemma both_ideal {V} (h : puts K V) : forall a b seen, both a b -> (forall x, In x b -> In x seen) ->
    both (ideal keq n a seen h) (ideal keq m b seen h).
  Proof.
    induction h as [|[[k v] t] h IH]; intros a b seen B SB; [exact B|]. rewrite !(ideal_unfold keq).
    apply IH; [apply both_step; assumption|]. intros x. apply step_seen, SB.
  Qed.
  Lemma both_nil : both [] [].
  Proof. split; [constructor|]. split; [constructor|]. split; [cbn; lia|]. left. split; [exact N0|reflexivity]. Qed.
  Lemma ideal_part {V} (h : puts K V) : part_of (ideal keq n [] [] h) (ideal keq m [] [] h).
  Proof. apply both_part, both_ideal; [apply both_nil|intros x []]. Qed.
  Lemma evicted_both {V} (h : puts K V) k : evicted keq m h k -> evicted keq n h k.
  Proof. intros (I & N). split; [exact I|]. intros J. apply N. exact (part_in _ _ k (ideal_part h) J). Qed.
End Two.

Section Count.
  Context {K V : Type} (keq : K -> K -> bool).
  Hypothesis EQ : keq_ok keq.
  Variables n m : nat.
  Hypothesis N0 : (0 < n)%nat.
  Hypothesis NM : (n <= m)%nat.
  Lemma refusals_gen (h : puts K V) : forall g c d, good keq n g c -> good keq m g d ->
    both n m (map i_key (list_ c)) (map i_key (list_ d)) -> (forall x, In x (map i_key (list_ d)) -> In x (keys_put g)) ->
    (refusals keq m d h <= refusals keq n c h)%nat.
  Proof.
    induction h as [|[[k v] t] h IH]; intros g c d GC GD B SD; cbn [refusals]; [lia|].
    destruct (put_good keq n true EQ N0 g c k v t GC) as (c' & EC & GC' & LC).
    destruct (put_good keq m true EQ ltac:(lia) g d k v t GD) as (d' & ED & GD' & LD).
    rewrite EC, ED. 
    assert (R : (refusals keq m d' h <= refusals keq n c' h)%nat).
    { apply (IH (g ++ [(k, v, t)]) c' d' GC' GD').
      - rewrite LC, LD. apply both_step; assumption.
      - intros x I. rewrite LD in I. apply (step_seen keq EQ m _ _ k x SD) in I. unfold keys_put. rewrite map_app, in_app_iff. cbn [map fst In].
        fold (keys_put g). destruct (existsb (fun x => keq x k) (keys_put g)); [left; exact I|]. destruct I as [I|I]; [right; left; exact I|left; exact I]. }
    destruct (first_put keq g k) as [[v0 t0]|]; [|exact R].
    destruct (existsb (fun x => keq x k) (map i_key (list_ c))) eqn:EX; cbn [negb].
    - apply (existsb_in keq EQ) in EX. apply (part_in _ _ k (both_part n m _ _ B)) in EX. apply (existsb_in keq EQ) in EX. rewrite EX. cbn [negb]. exact R.
    - destruct (existsb (fun x => keq x k) (map i_key (list_ d))); cbn [negb]; lia.
  Qed.
End Count.

(** A key stays while fewer than Size different keys follow it. *)
Section Stays.
  Context {K V : Type} (keq : K -> K -> bool).
  Hypothesis EQ : keq_ok keq.
  Variable n : nat.
  Definition front (k : K) (d l : list K) : Prop := exists p q, l = p ++ k :: q /\ incl p d.
  Lemma front_step d (l seen : list K) k j : NoDup l -> (forall x, In x l -> In x seen) -> (length d < n)%nat -> j = k \/ In j d -> front k d l ->
    front k d (ideal_step keq n l seen j).
  Proof.
    intros ND SL LD JD (p & q & -> & IP). unfold ideal_step.
    destruct (existsb (fun x => keq x j) seen) eqn:SE.
    - destruct (existsb (fun x => keq x j) (p ++ k :: q)) eqn:EL; [|exists p, q; auto].
      destruct (keq k j) eqn:EK.
      + apply EQ in EK. subst j. exists [], (without keq k (p ++ k :: q)). split; [reflexivity|intros x []].
      + exists (j :: without keq j p), (without keq j q). split.
        * unfold without. rewrite filter_app. cbn [filter]. rewrite EK. reflexivity.
        * destruct JD as [->|JD]; [rewrite (keq_refl keq EQ) in EK; discriminate|].
          intros x [<-|I]; [exact JD|]. apply filter_In in I. apply IP, I.
    - assert (NJ : ~ In j (p ++ k :: q)) by (intros I; apply SL in I; apply (existsb_in keq EQ) in I; congruence).
      destruct JD as [->|JD]; [exfalso; apply NJ, in_elt|].
      assert (LP : (length (j :: p) <= length d)%nat).
      { apply NoDup_incl_length.
        - constructor; [intros I; apply NJ, in_or_app; left; exact I|]. revert ND. apply nodup_front.
        - intros x [<-|I]; [exact JD|apply IP, I]. }
      exists (j :: p), (firstn (n - length (j :: p) - 1) q). split.
      + change (j :: p ++ k :: q) with ((j :: p) ++ k :: q). rewrite firstn_app. rewrite firstn_all2 by lia. f_equal.
        destruct (n - length (j :: p))%nat as [|e] eqn:EE; [lia|]. cbn [firstn Nat.sub]. rewrite Nat.sub_0_r. reflexivity.
      + intros x [<-|I]; [exact JD|apply IP, I].
  Qed.
  Lemma step_nodup l seen k : NoDup l -> (forall x, In x l -> In x seen) -> NoDup (ideal_step keq n l seen k).
  Proof.
    intros ND SL. unfold ideal_step. destruct (existsb (fun x => keq x k) seen) eqn:SE.
    - destruct (existsb _ l); [apply (moved_nodup keq EQ), ND|exact ND].
    - apply NoDup_firstn'. constructor; [|exact ND]. intros I. apply SL in I. apply (existsb_in keq EQ) in I. congruence.
  Qed.
  Lemma front_run d k (h : puts K V) : (length d < n)%nat -> incl (keys_put h) (k :: d) -> forall l seen, NoDup l -> (forall x, In x l -> In x seen) ->
    front k d l -> In k (ideal keq n l seen h).
  Proof.
    intros LD. induction h as [|[[j v] t] h IH]; intros HD l seen ND SL F.
    - destruct F as (p & q & -> & _). cbn [ideal]. apply in_elt.
    - rewrite (ideal_unfold keq). apply IH.
      + intros x I. apply HD. right. exact I.
      + apply step_nodup; assumption.
      + intros x. apply (step_seen keq EQ), SL.
      + apply front_step; auto. destruct (HD j (or_introl eq_refl)); auto.
  Qed.
  Lemma ideal_split (h1 : puts K V) : forall h2 l seen, NoDup l -> (forall x, In x l -> In x seen) ->
    exists l' seen', ideal keq n l seen (h1 ++ h2) = ideal keq n l' seen' h2 /\ ideal keq n l seen h1 = l' /\
      NoDup l' /\ (forall x, In x l' -> In x seen') /\ forall x, In x seen' <-> In x seen \/ In x (keys_put h1).
  Proof.
    induction h1 as [|[[j v] t] h1 IH]; intros h2 l seen ND SL.
    - exists l, seen. cbn. split; [reflexivity|]. split; [reflexivity|]. split; [exact ND|]. split; [exact SL|tauto].
    - cbn [app]. rewrite !(ideal_unfold keq).
      destruct (IH h2 (ideal_step keq n l seen j) (if existsb (fun x => keq x j) seen then seen else j :: seen)) as (l' & s' & E1 & E2 & N' & S' & Q).
      + apply step_nodup; assumption.
      + intros x. apply (step_seen keq EQ), SL.
      + exists l', s'. rewrite E1. split; [reflexivity|]. split; [exact E2|]. split; [exact N'|]. split; [exact S'|].
        intros x. rewrite Q. cbn [keys_put map fst In]. fold (keys_put h1). destruct (existsb (fun x => keq x j) seen) eqn:SE; cbn [In]; [|tauto].
        apply (existsb_in keq EQ) in SE. split; [tauto|]. intros [I|[<-|I]]; auto.
  Qed.
  Lemma recent_stays (h1 h2 : puts K V) k v t d : (0 < n)%nat -> ~ evicted keq n h1 k -> incl (keys_put h2) (k :: d) -> (length d < n)%nat ->
    In k (ideal keq n [] [] (h1 ++ (k, v, t) :: h2)).
  Proof.
    intros N0 NE HD LD.
    destruct (ideal_split h1 ((k, v, t) :: h2) [] []) as (l & s & -> & E & ND & SL & Q); [constructor|intros x []|].
    rewrite (ideal_unfold keq). apply (front_run d k h2 LD HD).
    - apply step_nodup; assumption.
    - intros x. apply (step_seen keq EQ), SL.
    - unfold ideal_step. destruct (existsb (fun x => keq x k) s) eqn:SE.
      + apply (existsb_in keq EQ) in SE. apply Q in SE. destruct SE as [[]|SE].
        destruct (existsb (fun x => keq x k) l) eqn:EL.
        * exists [], (without keq k l). split; [reflexivity|intros x []].
        * exfalso. apply NE. split; [exact SE|]. rewrite E. intros I. apply (existsb_in keq EQ) in I. congruence.
      + destruct n as [|n']; [lia|]. exists [], (firstn n' l). split; [reflexivity|intros x []].
  Qed.
  Lemma first_split (h : puts K V) k : In k (keys_put h) -> exists h1 v t h2, h = h1 ++ (k, v, t) :: h2 /\ ~ In k (keys_put h1).
  Proof.
    induction h as [|[[j v] t] h IH]; cbn [keys_put map fst In]; [intros []|]. fold (keys_put h). intros I. destruct (keq j k) eqn:E.
    - apply EQ in E. subst j. exists [], v, t, h. split; [reflexivity|intros []].
    - assert (NE : j <> k) by (intros ->; rewrite (keq_refl keq EQ) in E; discriminate).
      destruct I as [I|I]; [contradiction|]. destruct (IH I) as (h1 & v1 & t1 & h2 & -> & NI). exists ((j, v, t) :: h1), v1, t1, h2.
      split; [reflexivity|]. cbn [keys_put map fst In]. intros [X|X]; [contradiction|exact (NI X)].
  Qed.
  Lemma few_keys (h : puts K V) d k : (0 < n)%nat -> incl (keys_put h) d -> (length d <= n)%nat -> ~ evicted keq n h k.
  Proof.
    intros N0 ID LD (I & NI). destruct (first_split h k I) as (h1 & v & t & h2 & E & N1). subst h.
    assert (ID2 : forall x, In x (keys_put h2) -> In x d).
    { intros x X. apply ID. unfold keys_put. rewrite map_app. apply in_or_app. right. right. exact X. }
    apply NI. apply (recent_stays h1 h2 k v t (without keq k d) N0).
    - intros (X & _). contradiction.
    - intros x X. destruct (keq x k) eqn:E; [apply EQ in E; left; congruence|]. right. apply filter_In. rewrite E. split; [apply ID2, X|reflexivity].
    - apply ID in I. apply in_split in I. destruct I as (p & q & ->). unfold without. rewrite filter_app. cbn [filter]. rewrite (keq_refl keq EQ). cbn [negb].
      rewrite app_length. pose proof (filter_le (fun x => negb (keq x k)) p). pose proof (filter_le (fun x => negb (keq x k)) q).
      rewrite app_length in LD. cbn [length] in LD. lia.
  Qed.
  Lemma no_refusals (h : puts K V) : (0 < n)%nat -> (forall h1 k v t h2, h = h1 ++ (k, v, t) :: h2 -> ~ evicted keq n h1 k) ->
    refusals keq n lru_new h = 0%nat.
  Proof.
    intros N0. assert (X : forall g c, good keq n g c -> run_puts keq n true lru_new g = Ok c ->
      (forall h1 k v t h2, g ++ h = h1 ++ (k, v, t) :: h2 -> ~ evicted keq n h1 k) -> refusals keq n c h = 0%nat).
    { induction h as [|[[k v] t] h IH]; intros g c G R NE; [reflexivity|]. cbn [refusals].
      destruct (put_good keq n true EQ N0 g c k v t G) as (c' & E & G' & L). rewrite E.
      assert (R' : run_puts keq n true lru_new (g ++ [(k, v, t)]) = Ok c').
      { assert (E2 : exists o, put keq n true c k v t = Ok (c', o)) by eauto. destruct E2 as (o2 & E2). clear -R E2. revert R. generalize (@lru_new K V). induction g as [|[[j w] u] g IH]; intros e R; cbn [app run_puts] in *.
        - inversion R; subst. rewrite E2. reflexivity.
        - destruct (put keq n true e j w u) as [[e' o]| |]; [|discriminate|discriminate]. cbn [bind] in *. apply IH, R. }
      destruct (run_from_new keq n true EQ N0 g) as (c0 & E0 & _ & L0). rewrite R in E0. injection E0 as <-.
      assert (Z0 : refusals keq n c' h = 0%nat) by (apply (IH (g ++ [(k, v, t)]) c' G' R'); rewrite <- app_assoc; exact NE). rewrite Z0.
      destruct (first_put keq g k) as [p|] eqn:FP; [|reflexivity].
      destruct (existsb (fun x => keq x k) (map i_key (list_ c))) eqn:EX; [reflexivity|]. exfalso.
      apply (NE g k v t h eq_refl). split; [apply (first_put_in keq EQ); congruence|]. rewrite <- L0. intros I. apply (existsb_in keq EQ) in I. congruence. }
    intros NE. apply (X [] lru_new (good_new keq n N0) eq_refl NE).
  Qed.
End Stays.
