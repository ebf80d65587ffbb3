(** Networks of value observables: C107, C108. *)
From Verif Require Export VNetProofs2.

(** ** C107: derived values *)

(** Whatever the callbacks do to whichever observables, nothing is undefined as long as no
    operator overflows. *)
Theorem C107_never_undefined : forall ty Max upd disc f m calls,
  (forall s, ity_ok (ty s)) ->
  (forall log o n, xtame ty (upd log o n)) -> (forall log o, xtame ty (disc log o)) ->
  Forall (xtame_call ty) calls ->
  xrun_all ty Max upd disc f (xfresh Max m) calls <> UB.
Proof.
  intros ty Max upd disc f m calls T TU TD TC E.
  pose proof (xrun_all_safe ty Max T upd disc f calls _ (xinv_fresh ty Max T m)) as X. rewrite E in X.
  apply X. split; [split; assumption|exact TC].
Qed.

(** Each observable deals with its own observers: it answers add_observer and
    remove_observer as a bounded ordered set of its own, and reaches only those added to it. *)
Theorem C107_observers_apart : forall ty Max upd disc w l1 e l2,
  (forall s, ity_ok (ty s)) -> xreaches ty Max upd disc w -> x_log w = l1 ++ e :: l2 ->
  match e with
  | XStore s o _ | XDisc s o => In (XRet (XAdd s o) (RErr ok)) l1
  | XRet (XAdd s o) r =>
      r = RErr (if (max_observers (Max s) <=? length (xmembers l1 s))%nat then list_is_full
                else if in_dec Pos.eq_dec o (xmembers l1 s) then already_contains else ok)
  | XRet (XRemove s o) r => r = RErr (if in_dec Pos.eq_dec o (xmembers l1 s) then ok else not_found)
  | _ => True
  end.
Proof.
  intros ty Max upd disc w l1 e l2 T R E.
  pose proof (xgood_split Max _ (xi_good _ _ w (xreach_inv ty Max T upd disc w R)) l1 e l2 E) as X.
  exact X.
Qed.

(** When observeds recompute derived observables from the values of their inputs, then any
    update that returns leaves every derived observable with the right value: those that
    depend on the updated one in any way, and those that were right before.  Nothing else
    changes. *)
Theorem C107_settles : forall ty Max form target disc f w s op w' r,
  (forall s, ity_ok (ty s)) -> xreaches ty Max (deriving form target) disc w ->
  let m := xmembers (x_log w) in
  complete target m form ->
  xrun ty Max (deriving form target) disc f w (XOp s op) = Ok (w', r) ->
  xvalue w' s = conv (ty s) (math (xvalue w s) op) /\
  (forall d, d <> s -> (exists x, feeds target m x d) -> settled ty form w d \/ leads target m s d ->
     settled ty form w' d) /\
  (forall x, x <> s -> ~ leads target m s x -> xvalue w' x = xvalue w x) /\
  xmembers (x_log w') = m.
Proof.
  intros ty Max form target disc f w s op w' r T R m CP E.
  assert (K : known ty Max m w) by (split; [exact (xreach_inv ty Max T _ disc w R)|reflexivity]).
  destruct (op_out ty Max T form target disc m f w s op w' r K E) as (p & _ & _ & O).
  split; [rewrite (oc_val _ _ _ _ _ _ _ _ _ _ O); apply apply_math, T|].
  split; [exact (oc_settle _ _ _ _ _ _ _ _ _ _ O CP)|].
  split; [exact (oc_other _ _ _ _ _ _ _ _ _ _ O)|].
  exact (proj2 (known_run ty Max T form target disc m f w (XOp s op) w' r K Logic.I E)).
Qed.

(** The observeds: unless one is registered with two observables, those of every observable
    that depends on the updated one hold its value, and so do those of the others if they
    did; those of the updated one itself hold what the operator published. *)
Theorem C107_mirrors : forall ty Max form target disc f w s op w' r,
  (forall s, ity_ok (ty s)) -> xreaches ty Max (deriving form target) disc w ->
  let m := xmembers (x_log w) in
  exclusive m ->
  xrun ty Max (deriving form target) disc f w (XOp s op) = Ok (w', r) ->
  (forall u, u <> s -> mirrored w u \/ leads target m s u -> mirrored w' u) /\
  (exists p, published (ty s) (xvalue w s) op = Ok p /\ r = RVal p /\ forall o, In o (m s) -> x_mirror w' o = p) /\
  (faithful_op op = true -> mirrored w' s) /\
  (forall o, ~ In o (m s) -> (forall u, leads target m s u -> ~ In o (m u)) -> x_mirror w' o = x_mirror w o).
Proof.
  intros ty Max form target disc f w s op w' r T R m EX E.
  assert (K : known ty Max m w) by (split; [exact (xreach_inv ty Max T _ disc w R)|reflexivity]).
  destruct (op_out ty Max T form target disc m f w s op w' r K E) as (p & ER & EP & O).
  split; [exact (oc_mirror _ _ _ _ _ _ _ _ _ _ O EX)|].
  split; [exists p; split; [exact EP|]; split; [exact ER|exact (oc_told _ _ _ _ _ _ _ _ _ _ O EX)]|].
  split; [|exact (oc_kept _ _ _ _ _ _ _ _ _ _ O)].
  intros F o Ho. rewrite (proj2 (known_run ty Max T form target disc m f w (XOp s op) w' r K Logic.I E)) in Ho.
  rewrite (oc_told _ _ _ _ _ _ _ _ _ _ O EX o Ho), (oc_val _ _ _ _ _ _ _ _ _ _ O).
  exact (published_faithful (ty s) _ op p (T s) F EP).
Qed.

(** Two observables of different types; the observed of the first increments the second or
    moves itself there; the second's observed writes back. *)
Definition ty2 (s : addr) : ity :=
  if Pos.eqb s 1 then {| i_bits := 8; i_signed := false |} else {| i_bits := 16; i_signed := true |}.
Definition busy (log : list xev) (o : addr) (n : Z) : xbody :=
  if Pos.eqb o 11 then
    if n <? 2 then XDo (XOp 2 PreInc) (fun _ => XReturn)
    else XDo (XRemove 1 11) (fun _ => XDo (XAdd 2 11) (fun _ => XReturn))
  else if n <? 5 then XDo (XOp 1 (Assign (n + 250))) (fun _ => XReturn) else XReturn.
Definition no_xdisc (log : list xev) (o : addr) : xbody := XReturn.
Definition busy_calls : list xcall := [XAdd 1 11; XAdd 1 12; XOp 1 (Assign 258); XAdd 2 12; XOp 2 PreInc; XClear 2].
Definition xat ty Max upd (calls : list xcall) : vnet :=
  match xrun_all ty Max upd no_xdisc 60 (xfresh Max (fun _ => 0)) calls with Ok w => w | _ => xfresh Max (fun _ => 0) end.
Lemma xat_reaches ty Max upd calls :
  match xrun_all ty Max upd no_xdisc 60 (xfresh Max (fun _ => 0)) calls with Ok _ => true | _ => false end = true ->
  xreaches ty Max upd no_xdisc (xat ty Max upd calls).
Proof.
  unfold xat. intros H. exists (fun _ => 0), 60%nat, calls.
  destruct (xrun_all ty Max upd no_xdisc 60 (xfresh Max (fun _ => 0)) calls); [reflexivity|discriminate|discriminate].
Qed.
Lemma ty2_ok s : ity_ok (ty2 s).
Proof. unfold ty2, ity_ok. destruct (Pos.eqb s 1); cbn; tauto. Qed.
Lemma small_tame t : ity_ok t -> i_bits t < 32 -> tame t PreInc.
Proof.
  intros T L x X [_ H]. apply H. unfold common. replace (i_bits t <? 32) with true by lia.
  unfold in_ity, lo, hi in *. cbn [i_bits i_signed]. unfold ity_ok in T.
  destruct T as [E|[E|[E|E]]]; rewrite E in *; destruct (i_signed t); lia.
Qed.
Example C107_ex_busy :
  (forall s, ity_ok (ty2 s)) /\ (forall log o n, xtame ty2 (busy log o n)) /\
  (forall log o, xtame ty2 (no_xdisc log o)) /\ Forall (xtame_call ty2) busy_calls /\
  xreaches ty2 (fun _ => 2) busy no_xdisc (xat ty2 (fun _ => 2) busy busy_calls) /\
  xmembers (x_log (xat ty2 (fun _ => 2) busy busy_calls)) 1 = [12%positive] /\
  In (XStore 2 11 2) (x_log (xat ty2 (fun _ => 2) busy busy_calls)) /\
  In (XDisc 2 12) (x_log (xat ty2 (fun _ => 2) busy busy_calls)).
Proof.
  assert (P : tame (ty2 2) PreInc) by (apply small_tame; [apply ty2_ok|vm_compute; reflexivity]).
  assert (A : forall s v, tame (ty2 s) (Assign v)) by (intros s v x _ [_ F]; exact F).
  split; [exact ty2_ok|]. split; [|split; [|split]].
  - intros log o n. unfold busy. destruct (Pos.eqb o 11); [|destruct (n <? 5)].
    + destruct (n <? 2); [constructor; [exact P|]; intros _; constructor|].
      constructor; [exact Logic.I|]. intros _. constructor; [exact Logic.I|]. intros _. constructor.
    + constructor; [apply A|]. intros _. constructor.
    + constructor.
  - intros log o. constructor.
  - repeat constructor; try exact Logic.I; try exact P; apply A.
  - split; [apply xat_reaches; vm_compute; reflexivity|].
    split; [vm_compute; reflexivity|]. split; vm_compute; tauto.
Qed.

(** Three derived values: 2 is the source 1 doubled (modulo 256), 3 its negation, 4 the sum
    of 2 and 3. *)
Definition ty4 (s : addr) : ity :=
  if Pos.eqb s 2 then {| i_bits := 8; i_signed := false |} else {| i_bits := 32; i_signed := true |}.
Lemma ty4_ok s : ity_ok (ty4 s).
Proof. unfold ty4, ity_ok. destruct (Pos.eqb s 2); cbn; tauto. Qed.
Definition form4 (d : addr) : formula :=
  if Pos.eqb d 2 then Formula [1%positive] (fun l => 2 * sum l)
  else if Pos.eqb d 3 then Formula [1%positive] (fun l => - sum l)
  else if Pos.eqb d 4 then Formula [2%positive; 3%positive] sum
  else Formula [] (fun _ => 0).
Definition target4 (o : addr) : option addr :=
  if Pos.eqb o 11 then Some 2%positive else if Pos.eqb o 12 then Some 3%positive
  else if (Pos.eqb o 13 || Pos.eqb o 14) then Some 4%positive else None.
Definition calls4 : list xcall := [XAdd 1 11; XAdd 1 12; XAdd 2 13; XAdd 3 14; XAdd 4 15; XAdd 1 16; XOp 1 (Assign 7)].
Definition net4 : vnet := xat ty4 (fun _ => 5) (deriving form4 target4) calls4.
Lemma net4_reaches : xreaches ty4 (fun _ => 5) (deriving form4 target4) no_xdisc net4.
Proof. apply xat_reaches. vm_compute. reflexivity. Qed.
Definition m4 (s : addr) : list addr :=
  if Pos.eqb s 4 then [15%positive] else if Pos.eqb s 3 then [14%positive]
  else if Pos.eqb s 2 then [13%positive] else if Pos.eqb s 1 then [11; 12; 16]%positive else [].
Lemma net4_members s : xmembers (x_log net4) s = m4 s.
Proof.
  replace (xmembers (x_log net4)) with (fold_left xmember_step (x_log net4) (fun _ => [])) by reflexivity.
  set (l := x_log net4). vm_compute in l. subst l. cbn [fold_left xmember_step].
  unfold m4. destruct (Pos.eqb_spec s 1) as [->|N1]; [reflexivity|].
  destruct (Pos.eqb_spec s 2) as [->|N2]; [reflexivity|].
  destruct (Pos.eqb_spec s 3) as [->|N3]; [reflexivity|].
  destruct (Pos.eqb_spec s 4) as [->|N4]; reflexivity.
Qed.
Lemma net4_feeds s d : feeds target4 (xmembers (x_log net4)) s d ->
  s = 1%positive /\ d = 2%positive \/ s = 1%positive /\ d = 3%positive \/
  s = 2%positive /\ d = 4%positive \/ s = 3%positive /\ d = 4%positive.
Proof.
  intros (o & Ho & Ht). rewrite net4_members in Ho. unfold m4 in Ho.
  destruct (Pos.eqb_spec s 4) as [->|N4]; [destruct Ho as [<-|[]]; discriminate|].
  destruct (Pos.eqb_spec s 3) as [->|N3]; [destruct Ho as [<-|[]]; cbn in Ht; inversion Ht; tauto|].
  destruct (Pos.eqb_spec s 2) as [->|N2]; [destruct Ho as [<-|[]]; cbn in Ht; inversion Ht; tauto|].
  destruct (Pos.eqb_spec s 1) as [->|N1]; [|destruct Ho].
  destruct Ho as [<-|[<-|[<-|[]]]]; cbn in Ht; inversion Ht; tauto.
Qed.
Lemma net4_complete : complete target4 (xmembers (x_log net4)) form4.
Proof.
  intros s d x F Hx. unfold feeds. rewrite net4_members.
  destruct (net4_feeds s d F) as [[_ ->]|[[_ ->]|[[_ ->]|[_ ->]]]]; cbn in Hx.
  - destruct Hx as [<-|[]]. exists 11%positive. split; [left; reflexivity|reflexivity].
  - destruct Hx as [<-|[]]. exists 12%positive. split; [right; left; reflexivity|reflexivity].
  - destruct Hx as [<-|[<-|[]]]; [exists 13%positive|exists 14%positive]; (split; [left; reflexivity|reflexivity]).
  - destruct Hx as [<-|[<-|[]]]; [exists 13%positive|exists 14%positive]; (split; [left; reflexivity|reflexivity]).
Qed.
Example C107_ex_settles :
  exists w' r, xrun ty4 (fun _ => 5) (deriving form4 target4) no_xdisc 9 net4 (XOp 1 (AddEq 200)) = Ok (w', r) /\
    settled ty4 form4 w' 4 /\ xvalue w' 4 = - 49 /\ x_mirror w' 15 = - 49 /\ xvalue net4 4 = 7.
Proof. eexists. eexists. split; [vm_compute; reflexivity|]. split; [vm_compute; reflexivity|]. split; [|split]; vm_compute; reflexivity. Qed.

(** After 1++ the observeds of 1 hold the old value, and yet the derived values are right. *)
Example C107_ex_postfix :
  exists w' r, xrun ty4 (fun _ => 5) (deriving form4 target4) no_xdisc 9 net4 (XOp 1 PostInc) = Ok (w', r) /\
    xvalue w' 1 = 8 /\ x_mirror w' 16 = 7 /\ xvalue w' 2 = 16 /\ xvalue w' 3 = - 8 /\ x_mirror w' 15 = 8.
Proof. eexists. eexists. split; [vm_compute; reflexivity|]. repeat split. Qed.

(** ** C108: when an update returns, and how often things are recomputed *)

(** An update returns exactly if no cycle of derived values can be reached from it; otherwise
    it recurses without end.  It is undefined exactly if its own addition overflows. *)
Theorem C108_returns_iff_acyclic : forall ty Max form target disc w s op,
  (forall s, ity_ok (ty s)) -> xreaches ty Max (deriving form target) disc w ->
  ~ overflows (ty s) (xvalue w s) op ->
  let m := xmembers (x_log w) in
  ((exists f w' r, xrun ty Max (deriving form target) disc f w (XOp s op) = Ok (w', r)) <->
   (forall u, u = s \/ leads target m s u -> ~ leads target m u u)) /\
  ((exists u, (u = s \/ leads target m s u) /\ leads target m u u) ->
   forall f, xrun ty Max (deriving form target) disc f w (XOp s op) = Fuel).
Proof.
  intros ty Max form target disc w s op T R NO m.
  assert (K : known ty Max m w) by (split; [exact (xreach_inv ty Max T _ disc w R)|reflexivity]).
  assert (P : exists p, published (ty s) (xvalue w s) op = Ok p).
  { destruct (published_ub (ty s) (xvalue w s) op) as [P1 P2].
    destruct (published (ty s) (xvalue w s) op) as [p| |]; [exists p; reflexivity| |congruence].
    exfalso. apply NO, P1. reflexivity. }
  destruct P as (p & P).
  assert (NE : forall u, u = s \/ leads target m s u -> leads target m u u ->
            forall f w' r, xrun ty Max (deriving form target) disc f w (XOp s op) <> Ok (w', r)).
  { intros u H C f w' r. apply (endless ty Max T form target disc m f w s op u K); [|exact C].
    destruct H as [->|H]; assumption. }
  split; [split|].
  - intros (f & w' & r & E) u H C. exact (NE u H C f w' r E).
  - intros NC. exists (S (length (adders (x_log w)))).
    destruct (ends ty Max T form target disc m (adders (x_log w)) (adders_all (x_log w))
                (length (adders (x_log w))) (S (length (adders (x_log w)))) [] s op w p K) as (w' & E).
    + constructor.
    + intros x [].
    + intros q [].
    + exact NC.
    + cbn [length]. lia.
    + lia.
    + exact P.
    + exists w', (RVal p). exact E.
  - intros (u & H & C) f. pose proof (NE u H C f) as X.
    pose proof (op_defined ty Max T form target disc m f w s op p K P) as Y.
    destruct (xrun ty Max (deriving form target) disc f w (XOp s op)) as [[w' r]| |]; [|congruence|reflexivity].
    exfalso. exact (X w' r eq_refl).
Qed.

(** During an update of [s] every observable [u] is assigned, and each of its observeds told,
    once for each way from [s] to [u], not once. *)
Theorem C108_once_per_way : forall ty Max form target disc f w s op w' r,
  (forall s, ity_ok (ty s)) -> xreaches ty Max (deriving form target) disc w ->
  let m := xmembers (x_log w) in
  xrun ty Max (deriving form target) disc f w (XOp s op) = Ok (w', r) ->
  exists evs, x_log w' = x_log w ++ evs /\
    forall u k, (f <= k)%nat ->
      updates u evs = ways target m k s u /\
      (exclusive m -> forall o, In o (m u) -> length (given o evs) = ways target m k s u).
Proof.
  intros ty Max form target disc f w s op w' r T R m E.
  assert (K : known ty Max m w) by (split; [exact (xreach_inv ty Max T _ disc w R)|reflexivity]).
  destruct (op_out ty Max T form target disc m f w s op w' r K E) as (p & _ & _ & O).
  destruct (oc_log _ _ _ _ _ _ _ _ _ _ O) as (evs & L & U & G).
  exists evs. split; [exact L|]. intros u k Lk. split; [exact (U u k Lk)|]. intros EX o Ho. exact (G EX u o k Lk Ho).
Qed.

(** A diamond: [a] and [b] are computed from [s], and [d] from both.  One assignment to [s]
    tells the observed of [d] twice, first a value made of the new [a] and the old [b]. *)
Theorem C108_glitch : forall ty Max form target disc f w s a b d oa ob qa qb o v,
  (forall s, ity_ok (ty s)) -> xreaches ty Max (deriving form target) disc w ->
  let m := xmembers (x_log w) in
  m s = [oa; ob] -> m a = [qa] -> m b = [qb] -> m d = [o] ->
  target oa = Some a -> target ob = Some b -> target qa = Some d -> target qb = Some d -> target o = None ->
  f_inputs (form a) = [s] -> f_inputs (form b) = [s] -> f_inputs (form d) = [a; b] -> NoDup [s; a; b; d] ->
  let of x vs := conv (ty x) (f_of (form x) vs) in
  let vs := conv (ty s) v in
  exists w' evs, xrun ty Max (deriving form target) disc (S (S (S f))) w (XOp s (Assign v)) = Ok (w', RVal vs) /\
    x_log w' = x_log w ++ evs /\
    given o evs = [of d [of a [vs]; xvalue w b]; of d [of a [vs]; of b [vs]]].
Proof.
  intros ty Max form target disc f w s a b d oa ob qa qb o v T R m Ms Ma Mb Md Toa Tob Tqa Tqb To Ia Ib Id ND of vs.
  assert (K : known ty Max m w) by (split; [exact (xreach_inv ty Max T _ disc w R)|reflexivity]).
  destruct (diamond_run ty Max T form target disc m f w s a b d oa ob qa qb o v K Ms Ma Mb Md Toa Tob Tqa Tqb To Ia Ib Id ND)
    as (w' & E & evs & L & G).
  exists w', evs. split; [exact E|]. split; [exact L|exact G].
Qed.

Lemma net4_exclusive : exclusive (xmembers (x_log net4)).
Proof.
  intros s u o. rewrite !net4_members. unfold m4.
  destruct (Pos.eqb_spec s 4) as [->|S4]; [|destruct (Pos.eqb_spec s 3) as [->|S3]; [|destruct (Pos.eqb_spec s 2) as [->|S2];
    [|destruct (Pos.eqb_spec s 1) as [->|S1]; [|intros []]]]];
  (destruct (Pos.eqb_spec u 4) as [->|U4]; [|destruct (Pos.eqb_spec u 3) as [->|U3]; [|destruct (Pos.eqb_spec u 2) as [->|U2];
    [|destruct (Pos.eqb_spec u 1) as [->|U1]; [|intros ? []]]]]);
  cbn [In]; try reflexivity; intros H1 H2; exfalso; intuition (subst; discriminate).
Qed.
(** The diamond of C107: 4 is assigned twice by one update of 1. *)
Example C108_ex_ways :
  ways target4 (xmembers (x_log net4)) 9 1 4 = 2%nat /\ exclusive (xmembers (x_log net4)) /\
  exists w' r evs, xrun ty4 (fun _ => 5) (deriving form4 target4) no_xdisc 9 net4 (XOp 1 (Assign 100)) = Ok (w', r) /\
    x_log w' = x_log net4 ++ evs /\ updates 4 evs = 2%nat /\ given 15 evs = [193; 100].
Proof.
  split; [vm_compute; reflexivity|]. split; [exact net4_exclusive|].
  eexists. eexists. eexists. split; [vm_compute; reflexivity|]. split; [|split].
  - match goal with |- ?l = x_log net4 ++ _ =>
      let a := eval vm_compute in (x_log net4) in let n := eval vm_compute in (length (x_log net4)) in
      let e := eval vm_compute in (skipn n l) in
      instantiate (1 := e) end. vm_compute. reflexivity.
  - vm_compute. reflexivity.
  - vm_compute. reflexivity.
Qed.
Example C108_ex_acyclic :
  ~ overflows (ty4 1) (xvalue net4 1) (Assign 3) /\
  (forall u, u = 1%positive \/ leads target4 (xmembers (x_log net4)) 1 u -> ~ leads target4 (xmembers (x_log net4)) u u).
Proof.
  split; [intros [_ H]; exact H|]. intros u _ L.
  assert (G : forall s u, leads target4 (xmembers (x_log net4)) s u -> (s < u)%positive).
  { induction 1 as [s d F|s d x F L' IH]; destruct (net4_feeds _ _ F) as [[-> ->]|[[-> ->]|[[-> ->]|[-> ->]]]]; lia. }
  specialize (G u u L). lia.
Qed.

(** Two observables that each follow the other. *)
Definition form_pair (d : addr) : formula :=
  if Pos.eqb d 1 then Formula [2%positive] sum else if Pos.eqb d 2 then Formula [1%positive] sum else Formula [] (fun _ => 0).
Definition target_pair (o : addr) : option addr :=
  if Pos.eqb o 11 then Some 2%positive else if Pos.eqb o 12 then Some 1%positive else None.
Definition pair_net : vnet := xat ty2 (fun _ => 5) (deriving form_pair target_pair) [XAdd 1 11; XAdd 2 12; XAdd 3 13].
Example C108_ex_cycle :
  xreaches ty2 (fun _ => 5) (deriving form_pair target_pair) no_xdisc pair_net /\
  leads target_pair (xmembers (x_log pair_net)) 1 1 /\
  xrun ty2 (fun _ => 5) (deriving form_pair target_pair) no_xdisc 80 pair_net (XOp 1 (Assign 1)) = Fuel.
Proof.
  split; [apply xat_reaches; vm_compute; reflexivity|]. split.
  - apply (leads_more _ _ 1 2).
    + exists 11%positive. split; [vm_compute; tauto|reflexivity].
    + apply leads_one. exists 12%positive. split; [vm_compute; tauto|reflexivity].
  - vm_compute. reflexivity.
Qed.

(** With 2 = 1 and 3 = - 1 the sum in 4 ought always to be 0; its observed is told 5 on the way. *)
Definition form_zero (d : addr) : formula :=
  if Pos.eqb d 2 then Formula [1%positive] sum
  else if Pos.eqb d 3 then Formula [1%positive] (fun l => - sum l)
  else if Pos.eqb d 4 then Formula [2%positive; 3%positive] sum
  else Formula [] (fun _ => 0).
Definition zero_net : vnet :=
  xat (fun _ => int_ty) (fun _ => 5) (deriving form_zero target4) [XAdd 1 11; XAdd 1 12; XAdd 2 13; XAdd 3 14; XAdd 4 15].
Example C108_ex_glitch :
  xreaches (fun _ => int_ty) (fun _ => 5) (deriving form_zero target4) no_xdisc zero_net /\
  xmembers (x_log zero_net) 1 = [11; 12]%positive /\ xmembers (x_log zero_net) 4 = [15]%positive /\
  exists w', xrun (fun _ => int_ty) (fun _ => 5) (deriving form_zero target4) no_xdisc 3 zero_net (XOp 1 (Assign 5)) = Ok (w', RVal 5) /\
    given 15 (x_log w') = [5; 0] /\ settled (fun _ => int_ty) form_zero zero_net 4 /\ settled (fun _ => int_ty) form_zero w' 4.
Proof.
  split; [apply xat_reaches; vm_compute; reflexivity|]. split; [vm_compute; reflexivity|]. split; [vm_compute; reflexivity|].
  eexists. split; [vm_compute; reflexivity|]. split; [vm_compute; reflexivity|]. split; vm_compute; reflexivity.
Qed.

Print Assumptions C107_never_undefined.
Print Assumptions C107_observers_apart.
Print Assumptions C107_settles.
Print Assumptions C107_mirrors.
Print Assumptions C108_returns_iff_acyclic.
Print Assumptions C108_once_per_way.
Print Assumptions C108_glitch.
