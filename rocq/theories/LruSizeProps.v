(** C125: what Size does for an lru. *)
From Verif Require Import LruSizeProofs.

(** After the same puts the larger cache's recency list contains the smaller one's, in the same
    order, and both tables answer alike. *)
Theorem C125_larger_keeps_more {K V} (keq : K -> K -> bool) n m Exc (h : puts K V) c d :
  keq_ok keq -> (0 < n <= m)%nat ->
  run_puts keq n Exc lru_new h = Ok c -> run_puts keq m Exc lru_new h = Ok d ->
  part_of (map i_key (list_ c)) (map i_key (list_ d)) /\
  forall k, map_find keq (map_ c) k = map_find keq (map_ d) k.
Proof.
  intros EQ [N0 NM] RC RD.
  destruct (run_from_new keq n Exc EQ N0 h) as (c0 & EC & GC & LC). rewrite RC in EC. injection EC as <-.
  destruct (run_from_new keq m Exc EQ ltac:(lia) h) as (d0 & ED & GD & LD). rewrite RD in ED. injection ED as <-.
  split; [rewrite LC, LD; apply (ideal_part keq EQ n m N0 NM)|].
  intros k. rewrite (g_map _ _ _ _ GC), (g_map _ _ _ _ GD). reflexivity.
Qed.
(** A put the larger cache refuses is refused by the smaller one too, so over any history the
    larger one refuses no more puts. *)
Theorem C125_refused_by_larger {K V} (keq : K -> K -> bool) n m (h : puts K V) c d k v t d' :
  keq_ok keq -> (0 < n <= m)%nat ->
  run_puts keq n true lru_new h = Ok c -> run_puts keq m true lru_new h = Ok d ->
  put keq m true d k v t = Ok (d', ThrewMissed) -> exists c', put keq n true c k v t = Ok (c', ThrewMissed).
Proof.
  intros EQ [N0 NM] RC RD P.
  destruct (run_from_new keq n true EQ N0 h) as (c0 & EC & GC & LC). rewrite RC in EC. injection EC as <-.
  destruct (run_from_new keq m true EQ ltac:(lia) h) as (d0 & ED & GD & LD). rewrite RD in ED. injection ED as <-.
  destruct (put_good keq n true EQ N0 h c k v t GC) as (c' & E1 & _). destruct (put_good keq m true EQ ltac:(lia) h d k v t GD) as (d1 & E2 & _).
  rewrite P in E2. injection E2 as _ E2. exists c'. rewrite E1. do 2 f_equal.
  destruct (first_put keq h k); [|discriminate].
  destruct (existsb (fun x => keq x k) (map i_key (list_ d))) eqn:ED; [discriminate|].
  destruct (existsb (fun x => keq x k) (map i_key (list_ c))) eqn:EC; [|reflexivity]. exfalso.
  apply (existsb_in keq EQ) in EC. rewrite LC in EC. apply (part_in _ _ k (ideal_part keq EQ n m N0 NM h)) in EC. rewrite <- LD in EC.
  apply (existsb_in keq EQ) in EC. congruence.
Qed.
Theorem C125_fewer_refusals {K V} (keq : K -> K -> bool) n m (h : puts K V) :
  keq_ok keq -> (0 < n <= m)%nat -> (refusals keq m lru_new h <= refusals keq n lru_new h)%nat.
Proof.
  intros EQ [N0 NM]. apply (refusals_gen keq EQ n m N0 NM h [] lru_new lru_new (good_new keq n N0) (good_new keq m ltac:(lia))).
  - apply both_nil; assumption.
  - intros x [].
Qed.
(** No put is ever refused while at most Size different keys are put altogether. *)
Theorem C125_enough {K V} (keq : K -> K -> bool) n (h : puts K V) d :
  keq_ok keq -> (0 < n)%nat -> incl (keys_put h) d -> (length d <= n)%nat -> refusals keq n lru_new h = 0%nat.
Proof.
  intros EQ N0 ID LD. apply (no_refusals keq EQ n h N0). intros h1 k v t h2 E. apply (few_keys keq EQ n h1 d k N0); [|exact LD].
  intros x X. apply ID. rewrite E. unfold keys_put. rewrite map_app. apply in_or_app. left. exact X.
Qed.
(** A put of [k] that was accepted is followed by another accepted one if fewer than Size other
    keys have been put in between, however often. *)
Theorem C125_recent_keys_stay {K V} (keq : K -> K -> bool) n (h1 h2 : puts K V) k v t c c' d v' t' :
  keq_ok keq -> (0 < n)%nat ->
  run_puts keq n true lru_new h1 = Ok c -> put keq n true c k v t = Ok (c', Returned) ->
  incl (keys_put h2) (k :: d) -> (length d < n)%nat ->
  exists e e', run_puts keq n true c' h2 = Ok e /\ put keq n true e k v' t' = Ok (e', Returned).
Proof.
  intros EQ N0 R P ID LD.
  destruct (run_from_new keq n true EQ N0 h1) as (c0 & E0 & G & L). rewrite R in E0. injection E0 as <-.
  destruct (put_good keq n true EQ N0 h1 c k v t G) as (c1 & E1 & G1 & L1). rewrite P in E1. injection E1 as <- O1.
  assert (NE : ~ evicted keq n h1 k).
  { intros (I & NI). apply (first_put_in keq EQ) in I. destruct (first_put keq h1 k); [|congruence].
    destruct (existsb (fun x => keq x k) (map i_key (list_ c))) eqn:EX; [|discriminate]. apply NI. rewrite <- L. apply (existsb_in keq EQ), EX. }
  destruct (run_from_new keq n true EQ N0 (h1 ++ (k, v, t) :: h2)) as (e & E & GE & LE).
  assert (RE : run_puts keq n true c' h2 = Ok e).
  { assert (X : forall g a b, run_puts keq n true a g = Ok b -> run_puts keq n true a (g ++ (k, v, t) :: h2) = run_puts keq n true b ((k, v, t) :: h2)).
    { induction g as [|[[j w] u] g IH]; intros a b X; cbn [app run_puts] in *; [injection X as <-; reflexivity|].
      destruct (put keq n true a j w u) as [[a' o]| |]; [|discriminate|discriminate]. cbn [bind] in *. apply IH, X. }
    rewrite (X h1 _ _ R) in E. cbn [run_puts] in E. rewrite P in E. exact E. }
  destruct (put_good keq n true EQ N0 _ e k v' t' GE) as (e' & E' & _ & _).
  exists e, e'. split; [exact RE|]. rewrite E'.
  assert (I : existsb (fun x => keq x k) (map i_key (list_ e)) = true).
  { apply (existsb_in keq EQ). rewrite LE. apply (recent_stays keq EQ n h1 h2 k v t d N0 NE ID LD). }
  rewrite I. destruct (first_put keq (h1 ++ (k, v, t) :: h2) k); reflexivity.
Qed.

(** Five puts of three keys: a cache of two refuses two of them, a cache of three none. *)
Example C125_ex :
  let h := [(1%nat, 10, 0); (2%nat, 20, 1); (3%nat, 30, 2); (1%nat, 11, 3); (1%nat, 12, 4)] in
  refusals Nat.eqb 2 lru_new h = 2%nat /\ refusals Nat.eqb 3 lru_new h = 0%nat /\
  match run_puts Nat.eqb 2 true lru_new h, run_puts Nat.eqb 3 true lru_new h with
  | Ok c, Ok d => map i_key (list_ c) = [3; 2]%nat /\ map i_key (list_ d) = [1; 3; 2]%nat
  | _, _ => False
  end.
Proof. vm_compute. repeat split; reflexivity. Qed.
Example C125_ex_refused :
  match run_puts Nat.eqb 1 true lru_new [(1%nat, 10, 0); (2%nat, 20, 1); (3%nat, 30, 2)],
        run_puts Nat.eqb 2 true lru_new [(1%nat, 10, 0); (2%nat, 20, 1); (3%nat, 30, 2)] with
  | Ok c, Ok d => put Nat.eqb 2 true d 1%nat 5 3 = Ok (d, ThrewMissed) /\ put Nat.eqb 1 true c 1%nat 5 3 = Ok (c, ThrewMissed)
  | _, _ => False
  end.
Proof. vm_compute. split; reflexivity. Qed.
(** Key 1 is put; then keys 2 and 1 several times; a cache of two still has it. *)
Example C125_ex_stays :
  let h2 := [(2%nat, 20, 1); (1%nat, 11, 2); (2%nat, 21, 3); (2%nat, 22, 4)] in
  incl (keys_put h2) (1 :: [2])%nat /\
  match put Nat.eqb 2 true lru_new 1%nat 10 0 with
  | Ok (c', Returned) => match run_puts Nat.eqb 2 true c' h2 with
                         | Ok e => match put Nat.eqb 2 true e 1%nat 12 5 with Ok (_, Returned) => True | _ => False end
                         | _ => False
                         end
  | _ => False
  end.
Proof. vm_compute. split; [|exact Logic.I]. intros x [<-|[<-|[<-|[<-|[]]]]]; auto. Qed.

Print Assumptions C125_larger_keeps_more.
Print Assumptions C125_refused_by_larger.
Print Assumptions C125_fewer_refusals.
Print Assumptions C125_enough.
Print Assumptions C125_recent_keys_stay.
