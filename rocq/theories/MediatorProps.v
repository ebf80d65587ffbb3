(** Properties C36-C42 and C93-C95 of xitren::comm::mediator. *)
From Verif Require Import MediatorProofs2.
Open Scope string_scope. Open Scope list_scope. Open Scope Z_scope.

(** Example ingredients: the classes of tests/mediator_test.cpp; bytes little-endian. *)
Definition t1 := MTy "5data1" 4. Definition t2 := MTy "5data2" 8. Definition t3 := MTy "5data3" 8.
Definition ex_desc (a : addr) : mdesc :=
  match a with
  | 1%positive => MDesc t1 [t2]
  | 2%positive => MDesc t2 [t3]
  | _ => MDesc t3 [t2; t1]
  end.
Fixpoint str_sum (s : string) : Z :=
  match s with EmptyString => 7 | String c r => Z.of_nat (Ascii.nat_of_ascii c) + 31 * str_sum r end.
Definition ex_enc (D : mty) (v : Z) : list Z := le_bytes (ty_size D) v.
Definition ex_dec (D : mty) (bs : list Z) : Z := le_val bs.
(** Module 3 answers a data2 message with a message of its own. *)
Definition ex_handler (log : list mev) (a : addr) (D : mty) (bs : list Z) : mbody :=
  if Pos.eqb a 3 then
    if mty_eq_dec D t2 then MDo (ModSend 3 5) (fun _ => MReturn) else MReturn
  else MReturn.
Lemma ex_only_sends log a D bs : only_sends (ex_handler log a D bs).
Proof.
  unfold ex_handler. destruct (Pos.eqb a 3); [|constructor].
  destruct (mty_eq_dec D t2); repeat constructor.
Qed.
(** The manager answers data1 messages with one of its own. *)
Definition ex_hook (log : list mev) (id : Z) (bs : list Z) : mbody :=
  if id =? str_sum "5data1" then MDo (MgrSend t3 7) (fun _ => MReturn) else MReturn.
Lemma ex_hook_only_sends log id bs : only_sends (ex_hook log id bs).
Proof. unfold ex_hook. destruct (id =? _); repeat constructor. Qed.
Definition ex_run n calls := mrun_all str_sum ex_enc ex_desc n ex_handler ex_hook 5 (mfresh n) calls.
Definition ex_w n calls := match ex_run n calls with MOk w => w | _ => mfresh n end.
Lemma ex_reaches n calls : (match ex_run n calls with MOk _ => true | _ => false end) = true ->
  mreaches str_sum ex_enc ex_desc n ex_handler ex_hook (ex_w n calls).
Proof.
  unfold mreaches, ex_w. intros H. exists 5%nat, calls. fold (ex_run n calls).
  destruct (ex_run n calls); [reflexivity|discriminate..].
Qed.
Lemma ex_no_collision D' : in_use ex_desc D' -> str_sum (ty_name D') = str_sum (ty_name t2) -> D' = t2.
Proof.
  intros [a H]. unfold ex_desc in H. destruct a as [[]|[]|]; cbn in H;
    (destruct H as [H|H]; [|repeat (destruct H as [H|H]; [|])]); subst; try (vm_compute; congruence); try tauto.
Qed.

(** ** C36 *)
(** Handlers may send in turn; what the message itself causes is what [direct] sees. *)
Theorem C36_routing : forall hash enc desc Sources handler hook f w s v w',
  mreaches hash enc desc Sources handler hook w ->
  (forall log a D bs, only_sends (handler log a D bs)) -> (forall log id bs, only_sends (hook log id bs)) ->
  let D := md_sends (desc s) in
  (forall D', in_use desc D' -> hash (ty_name D') = hash (ty_name D) -> D' = D) ->
  length (enc D v) = ty_size D ->
  mrun hash enc desc Sources handler hook f w (ModSend s v) = MOk w' ->
  exists inner, m_log w' = m_log w ++ Begin (ModSend s v) :: inner ++ [End (ModSend s v)] /\
    direct 0 inner = Hook (hash (ty_name D)) (enc D v) ::
                     map (fun a => Recv a D (enc D v)) (filter (wants desc D) (registered (m_log w))) /\
    registered (m_log w') = registered (m_log w).
Proof.
  intros hash enc desc Sources handler hook f w s v w' R OS OH D HU HL E.
  destruct (send_ok hash enc desc Sources handler hook _ f w (ModSend s v) D v w' (fun a H => H) OS OH R eq_refl E)
    as (inner & new & A & B & C & F).
  assert (RG : registered (m_log w') = registered (m_log w)).
  { rewrite A. apply quiet_registered; [exact Logic.I|left; reflexivity|exact F]. }
  exists inner. split; [exact A|]. split; [|exact RG].
  rewrite B, RG. cbn [told app]. f_equal. apply reactions_wants; assumption.
Qed.

(** Handlers that return at once: the send of an existing module, or of the manager,
    returns. *)
Theorem C36_send_returns : forall hash enc desc Sources handler hook f w c,
  mreaches hash enc desc Sources handler hook w ->
  (forall log a D bs, handler log a D bs = MReturn) -> (forall log id bs, hook log id bs = MReturn) ->
  sent desc c <> None -> (forall s, sender c = Some s -> In s (registered (m_log w))) ->
  exists w', mrun hash enc desc Sources handler hook (S f) w c = MOk w'.
Proof.
  intros hash enc desc Sources handler hook f w c R P HK HC HS.
  pose proof (mreach_inv desc Sources hash enc handler hook w R) as I.
  assert (I0 : minv desc Sources (memit w (Begin c))) by (apply memit_plain; [exact I|exact Logic.I]).
  assert (L : (m_cnt (memit w (Begin c)) < 0 + S Sources)%nat)
    by (pose proof (minv_le desc Sources _ I0); lia).
  cbn [mrun]. destruct c as [a|a|a v|D v]; cbn [sent] in HC; try congruence.
  - assert (TH : there (Some a) (m_log (memit w (Begin (ModSend a v))))).
    { cbn [there memit m_log]. rewrite registered_snoc. apply HS. reflexivity. }
    rewrite (there_read (Some a) _ TH). cbn [mbind]. rewrite HK. cbn [mbody_run mbind].
    set (w1 := memit (memit w (Begin (ModSend a v))) _).
    assert (I1 : minv desc Sources w1) by (apply memit_plain; [exact I0|exact Logic.I]).
    assert (TH1 : there (Some a) (m_log w1)).
    { eapply there_reg; [|exact TH]. cbn [w1 memit m_log]. rewrite registered_snoc. reflexivity. }
    destruct (mloop_returns desc Sources hash enc handler hook (mrun hash enc desc Sources handler hook f) (Some a) (id_of hash desc a)
                (enc (md_sends (desc a)) v) (S Sources) P 0 w1 I1 TH1 (Nat.le_0_l _) L) as [w' E].
    rewrite E. eexists. reflexivity.
  - destruct (mloop_returns desc Sources hash enc handler hook (mrun hash enc desc Sources handler hook f) None (hash (ty_name D))
                (enc D v) (S Sources) P 0 _ I0 Logic.I (Nat.le_0_l _) L) as [w' E].
    rewrite E. eexists. reflexivity.
Qed.

Example C36_ex :
  let w := ex_w 5 [Construct 1; Construct 2; Construct 3] in
  mreaches str_sum ex_enc ex_desc 5 ex_handler ex_hook w /\
  (forall D', in_use ex_desc D' -> str_sum (ty_name D') = str_sum (ty_name t2) -> D' = t2) /\
  match mrun str_sum ex_enc ex_desc 5 ex_handler ex_hook 5 w (ModSend 2 300) with
  | MOk w' => m_log w' = m_log w ++
      [Begin (ModSend 2 300);
       Hook (str_sum "5data2") [44; 1; 0; 0; 0; 0; 0; 0];
       Recv 1 t2 [44; 1; 0; 0; 0; 0; 0; 0];
       Recv 3 t2 [44; 1; 0; 0; 0; 0; 0; 0];
       Begin (ModSend 3 5); Hook (str_sum "5data3") [5; 0; 0; 0; 0; 0; 0; 0]; Recv 2 t3 [5; 0; 0; 0; 0; 0; 0; 0]; End (ModSend 3 5);
       End (ModSend 2 300)]
  | _ => False
  end.
Proof.
  split; [apply ex_reaches; vm_compute; reflexivity|]. split; [exact ex_no_collision|].
  vm_compute. reflexivity.
Qed.

(** ** C37 *)
(** Each handler started by the message, and the manager's own data(), sees the value
    that was sent. *)
Theorem C37_payload_integrity : forall hash enc dec desc Sources handler hook f w c D v w',
  mreaches hash enc desc Sources handler hook w ->
  (forall log a D bs, never_destroys (handler log a D bs)) -> (forall log id bs, never_destroys (hook log id bs)) ->
  sent desc c = Some (D, v) ->
  (forall x, in_use desc x -> hash (ty_name x) = hash (ty_name D) -> x = D) ->
  length (enc D v) = ty_size D -> dec D (enc D v) = v ->
  mrun hash enc desc Sources handler hook f w c = MOk w' ->
  exists inner, m_log w' = m_log w ++ Begin c :: inner ++ [End c] /\
    (forall a D' bs, In (Recv a D' bs) (direct 0 inner) -> D' = D /\ dec D' bs = v) /\
    (forall id bs, In (Hook id bs) (direct 0 inner) -> id = hash (ty_name D) /\ dec D bs = v).
Proof.
  intros hash enc dec desc Sources handler hook f w c D v w' R OS OH HC HU HL HD E.
  destruct (send_ok hash enc desc Sources handler hook _ f w c D v w' (fun a H => H) OS OH R HC E)
    as (inner & new & A & B & _ & _).
  exists inner. split; [exact A|]. rewrite B, reactions_wants by assumption. split.
  - intros a D' bs H. rewrite in_app_iff in H. destruct H as [H|H].
    + destruct c; cbn in H; try contradiction. destruct H as [H|[]]. discriminate.
    + apply in_map_iff in H. destruct H as (y & Hy & _). inversion Hy; subst. split; [reflexivity|exact HD].
  - intros id bs H. rewrite in_app_iff in H. destruct H as [H|H].
    + destruct c; cbn [told] in H; try contradiction. destruct H as [H|[]]. inversion H; subst.
      cbn [sent] in HC. inversion HC; subst. split; [reflexivity|exact HD].
    + apply in_map_iff in H. destruct H as (y & Hy & _). discriminate.
Qed.

(** The manager's own conversion: an exception exactly when the sizes differ, and never
    a read outside the message. *)
Theorem C37_manager_convert : forall dec enc D v T bs,
  (length (enc D v) = ty_size D -> dec D (enc D v) = v -> mgr_convert_field dec D (enc D v) = Ok (Some v)) /\
  (length bs = ty_size T -> mgr_convert_field dec T bs = Ok (Some (dec T bs))) /\
  (length bs <> ty_size T -> mgr_convert_field dec T bs = Ok None).
Proof.
  intros dec enc D v T bs.
  assert (G : forall T bs, length bs = ty_size T -> mgr_convert_field dec T bs = Ok (Some (dec T bs))).
  { clear. intros T bs HL. unfold mgr_convert_field. rewrite HL, Nat.eqb_refl. cbn [negb].
    rewrite <- HL, read_bytes_all. reflexivity. }
  split; [intros HL HD; rewrite (G _ _ HL), HD; reflexivity|]. split; [apply G|].
  intros N. unfold mgr_convert_field. destruct (Nat.eqb_spec (ty_size T) (length bs)); [congruence|reflexivity].
Qed.

Example C37_ex :
  length (ex_enc t2 300) = ty_size t2 /\ ex_dec t2 (ex_enc t2 300) = 300 /\
  mgr_convert_field ex_dec t2 (ex_enc t2 300) = Ok (Some 300) /\
  mgr_convert_field ex_dec t1 (ex_enc t2 300) = Ok None.
Proof. vm_compute. tauto. Qed.

(** ** C38 *)
(** The manager's messages do not go through its own data(). *)
Theorem C38_manager_send_routing : forall hash enc desc Sources handler hook f w D v w',
  mreaches hash enc desc Sources handler hook w ->
  (forall log a D bs, only_sends (handler log a D bs)) -> (forall log id bs, only_sends (hook log id bs)) ->
  (forall D', in_use desc D' -> hash (ty_name D') = hash (ty_name D) -> D' = D) ->
  length (enc D v) = ty_size D ->
  mrun hash enc desc Sources handler hook f w (MgrSend D v) = MOk w' ->
  exists inner, m_log w' = m_log w ++ Begin (MgrSend D v) :: inner ++ [End (MgrSend D v)] /\
    direct 0 inner = map (fun a => Recv a D (enc D v)) (filter (wants desc D) (registered (m_log w))) /\
    registered (m_log w') = registered (m_log w).
Proof.
  intros hash enc desc Sources handler hook f w D v w' R OS OH HU HL E.
  destruct (send_ok hash enc desc Sources handler hook _ f w (MgrSend D v) D v w' (fun a H => H) OS OH R eq_refl E)
    as (inner & new & A & B & C & F).
  assert (RG : registered (m_log w') = registered (m_log w)).
  { rewrite A. apply quiet_registered; [exact Logic.I|left; reflexivity|exact F]. }
  exists inner. split; [exact A|]. split; [|exact RG].
  rewrite B, RG. cbn [told app]. apply reactions_wants; assumption.
Qed.

Example C38_ex :
  let w := ex_w 5 [Construct 1; Construct 2; Construct 3; Construct 4; Destroy 3] in
  mreaches str_sum ex_enc ex_desc 5 ex_handler ex_hook w /\
  match mrun str_sum ex_enc ex_desc 5 ex_handler ex_hook 5 w (MgrSend t2 1) with
  | MOk w' => m_log w' = m_log w ++
      [Begin (MgrSend t2 1); Recv 1 t2 [1; 0; 0; 0; 0; 0; 0; 0]; Recv 4 t2 [1; 0; 0; 0; 0; 0; 0; 0];
       End (MgrSend t2 1)]
  | _ => False
  end.
Proof. split; [apply ex_reaches; vm_compute; reflexivity|vm_compute; reflexivity]. Qed.

(** ** C39 *)
(** Whatever the handlers do (also construct and destroy modules, also throw): undefined
    behaviour means that the table is full at that moment, or that the module whose send
    is being carried out does not exist (any more). *)
Theorem C39_safe_below_capacity : forall hash enc desc Sources handler hook f calls log,
  mrun_all hash enc desc Sources handler hook f (mfresh Sources) calls = MUB log ->
  length (registered log) = Sources \/
  exists s v rest, open_calls log = ModSend s v :: rest /\ ~ In s (registered log).
Proof.
  intros hash enc desc Sources handler hook f calls log E.
  pose proof (mrun_all_safe desc Sources hash enc handler hook f calls _ (minv_fresh desc Sources)) as HS.
  rewrite E in HS. apply HS.
Qed.

(** Construction and destruction below capacity. *)
Theorem C39_ordered_registration : forall hash enc desc Sources handler hook f w a,
  mreaches hash enc desc Sources handler hook w ->
  (length (registered (m_log w)) < Sources)%nat ->
  (exists w', mrun hash enc desc Sources handler hook (S f) w (Construct a) = MOk w' /\
     registered (m_log w') = registered (m_log w) ++ [a]) /\
  (NoDup (registered (m_log w)) ->
   exists w', mrun hash enc desc Sources handler hook (S f) w (Destroy a) = MOk w' /\
     registered (m_log w') = remove Pos.eq_dec a (registered (m_log w)) /\
     NoDup (registered (m_log w'))).
Proof.
  intros hash enc desc Sources handler hook f w a R L.
  pose proof (mreach_inv desc Sources hash enc handler hook w R) as I.
  split.
  - assert (I0 : minv desc Sources (memit w (Begin (Construct a)))) by (apply memit_plain; [exact I|exact Logic.I]).
    assert (L0 : (m_cnt (memit w (Begin (Construct a))) < Sources)%nat) by (cbn; rewrite (mi_cnt _ _ _ I); exact L).
    destruct (minv_construct desc Sources _ a I0 L0) as (tab & Ht & _).
    cbn [mrun]. rewrite Ht. cbn [lift mbind]. eexists. split; [reflexivity|].
    cbn [memit m_log]. rewrite !registered_snoc. reflexivity.
  - intros ND.
    assert (I0 : minv desc Sources (memit w (Begin (Destroy a)))) by (apply memit_plain; [exact I|exact Logic.I]).
    assert (L0 : (m_cnt (memit w (Begin (Destroy a))) < Sources)%nat) by (cbn; rewrite (mi_cnt _ _ _ I); exact L).
    destruct (minv_destroy desc Sources _ a I0 (or_introl L0)) as (tab & cnt & Ht & _).
    cbn [mrun]. rewrite Ht. cbn [lift mbind]. eexists. split; [reflexivity|].
    cbn [memit m_log]. rewrite !registered_snoc. cbn [reg_step]. rewrite remove_first_nodup by exact ND.
    split; [reflexivity|]. clear -ND. induction (registered (m_log w)) as [|x l IH]; [constructor|].
    inversion ND; subst. cbn [remove]. destruct (Pos.eq_dec a x); [apply IH; assumption|].
    constructor; [|apply IH; assumption]. intros H. apply in_remove in H. tauto.
Qed.

Example C39_ex :
  let w := ex_w 4 [Construct 1; Construct 2; Construct 3; Destroy 2] in
  mreaches str_sum ex_enc ex_desc 4 ex_handler ex_hook w /\ registered (m_log w) = [1; 3]%positive /\
  NoDup (registered (m_log w)).
Proof.
  split; [apply ex_reaches; vm_compute; reflexivity|]. split; [vm_compute; reflexivity|].
  vm_compute. repeat constructor; cbn; intuition discriminate.
Qed.

(** ** C40 *)
(** A full table: destroying any registered module writes outside it. *)
Theorem C40_full_teardown_refuted : forall hash enc desc Sources handler hook f w a,
  mreaches hash enc desc Sources handler hook w ->
  length (registered (m_log w)) = Sources -> In a (registered (m_log w)) ->
  mrun hash enc desc Sources handler hook (S f) w (Destroy a) = MUB (m_log w ++ [Begin (Destroy a)]).
Proof.
  intros hash enc desc Sources handler hook f w a R L HI.
  pose proof (mreach_inv desc Sources hash enc handler hook w R) as I.
  assert (I0 : minv desc Sources (memit w (Begin (Destroy a)))) by (apply memit_plain; [exact I|exact Logic.I]).
  cbn [mrun]. rewrite (destroy_full desc Sources _ a I0); [reflexivity| |].
  - cbn. rewrite (mi_cnt _ _ _ I). exact L.
  - cbn [memit m_log]. rewrite registered_snoc. exact HI.
Qed.

Example C40_ex :
  let w := ex_w 3 [Construct 1; Construct 2; Construct 3] in
  mreaches str_sum ex_enc ex_desc 3 ex_handler ex_hook w /\ registered (m_log w) = [1; 2; 3]%positive.
Proof. split; [apply ex_reaches; vm_compute; reflexivity|vm_compute; reflexivity]. Qed.

(** ** C41 *)
Theorem C41_over_registration_refuted : forall hash enc desc Sources handler hook f w a,
  mreaches hash enc desc Sources handler hook w ->
  length (registered (m_log w)) = Sources ->
  mrun hash enc desc Sources handler hook (S f) w (Construct a) = MUB (m_log w ++ [Begin (Construct a)]).
Proof.
  intros hash enc desc Sources handler hook f w a R L.
  pose proof (mreach_inv desc Sources hash enc handler hook w R) as I.
  assert (I0 : minv desc Sources (memit w (Begin (Construct a)))) by (apply memit_plain; [exact I|exact Logic.I]).
  cbn [mrun]. rewrite (construct_full desc Sources _ a I0); [reflexivity|].
  cbn. rewrite (mi_cnt _ _ _ I). exact L.
Qed.

Example C41_ex :
  ex_run 3 [Construct 1; Construct 2; Construct 3; Construct 4]
  = MUB [Begin (Construct 1); End (Construct 1); Begin (Construct 2); End (Construct 2);
         Begin (Construct 3); End (Construct 3); Begin (Construct 4)].
Proof. vm_compute. reflexivity. Qed.

(** ** C42 *)
(** Any hash, any handlers: a handler only ever runs on an object of its own size
    and for a type its module lists. *)
Theorem C42_right_size : forall hash enc desc Sources handler hook w a D bs,
  mreaches hash enc desc Sources handler hook w -> In (Recv a D bs) (m_log w) ->
  length bs = ty_size D /\ In D (md_recvs (desc a)).
Proof.
  intros hash enc desc Sources handler hook w a D bs R H.
  exact (mi_recv _ _ _ (mreach_inv desc Sources hash enc handler hook w R) a D bs H).
Qed.

(** Exactly what happens to a message, colliding or not: each module looks for its
    first receive type with that hash and gets the message's bytes if the size fits. *)
Theorem C42_any_hash : forall hash enc desc Sources handler hook f w c D v w',
  mreaches hash enc desc Sources handler hook w ->
  (forall log a D bs, never_destroys (handler log a D bs)) -> (forall log id bs, never_destroys (hook log id bs)) ->
  sent desc c = Some (D, v) -> mrun hash enc desc Sources handler hook f w c = MOk w' ->
  exists inner, m_log w' = m_log w ++ Begin c :: inner ++ [End c] /\
    direct 0 inner = told hash enc desc c ++
      flat_map (fun a =>
        if hash (ty_name (md_sends (desc a))) =? hash (ty_name D) then []
        else match find (fun X => hash (ty_name D) =? hash (ty_name X)) (md_recvs (desc a)) with
             | Some X => if (ty_size X =? length (enc D v))%nat then [Recv a X (enc D v)] else []
             | None => []
             end) (registered (m_log w')).
Proof.
  intros hash enc desc Sources handler hook f w c D v w' R OS OH HC E.
  destruct (send_ok hash enc desc Sources handler hook _ f w c D v w' (fun a H => H) OS OH R HC E)
    as (inner & new & A & B & _ & _).
  exists inner. split; [exact A|exact B].
Qed.

(** A hash under which data1 and data2 collide: the 8-byte message does not reach
    the 4-byte handler (nor, because of the order of the list, anybody else). *)
Definition bad_hash (s : string) : Z := if string_dec s "5data3" then 1 else 0.
Example C42_ex :
  let desc := fun a : addr => match a with 1%positive => MDesc t3 [t1; t2] | 2%positive => MDesc t3 [t2] | _ => MDesc t1 [] end in
  let run := mrun_all bad_hash ex_enc desc 5 (fun _ _ _ _ => MReturn) (fun _ _ _ => MReturn) 5 (mfresh 5) [Construct 1; Construct 2; Construct 3] in
  match run with
  | MOk w => match mrun bad_hash ex_enc desc 5 (fun _ _ _ _ => MReturn) (fun _ _ _ => MReturn) 5 w (MgrSend t2 9) with
             | MOk w' => m_log w' = m_log w ++ [Begin (MgrSend t2 9); Recv 2 t2 [9; 0; 0; 0; 0; 0; 0; 0]; End (MgrSend t2 9)]
             | _ => False
             end
  | _ => False
  end.
Proof. vm_compute. reflexivity. Qed.

(** ** C93 *)
(** Handlers may construct modules while a message is distributed: the new modules get
    it too. *)
Theorem C93_newcomers_receive : forall hash enc desc Sources handler hook f w c D v w',
  mreaches hash enc desc Sources handler hook w ->
  (forall log a D bs, never_destroys (handler log a D bs)) -> (forall log id bs, never_destroys (hook log id bs)) ->
  sent desc c = Some (D, v) ->
  (forall D', in_use desc D' -> hash (ty_name D') = hash (ty_name D) -> D' = D) ->
  length (enc D v) = ty_size D ->
  mrun hash enc desc Sources handler hook f w c = MOk w' ->
  exists inner new, m_log w' = m_log w ++ Begin c :: inner ++ [End c] /\
    registered (m_log w') = registered (m_log w) ++ new /\
    direct 0 inner = told hash enc desc c ++
      map (fun a => Recv a D (enc D v)) (filter (wants desc D) (registered (m_log w) ++ new)).
Proof.
  intros hash enc desc Sources handler hook f w c D v w' R OS OH HC HU HL E.
  destruct (send_ok hash enc desc Sources handler hook _ f w c D v w' (fun a H => H) OS OH R HC E)
    as (inner & new & A & B & C & _).
  exists inner, new. split; [exact A|]. split; [exact C|]. rewrite B, C, reactions_wants by assumption. reflexivity.
Qed.

(** Module 1 constructs module 4 when it hears from module 2. *)
Definition ex_spawn (log : list mev) (a : addr) (D : mty) (bs : list Z) : mbody :=
  if Pos.eqb a 1 then MDo (Construct 4) (fun _ => MReturn) else MReturn.
Example C93_ex :
  (forall log a D bs, never_destroys (ex_spawn log a D bs)) /\
  match mrun_all str_sum ex_enc ex_desc 5 ex_spawn ex_hook 5 (mfresh 5) [Construct 1; Construct 2] with
  | MOk w => match mrun str_sum ex_enc ex_desc 5 ex_spawn ex_hook 5 w (ModSend 2 1) with
             | MOk w' => m_log w' = m_log w ++
                 [Begin (ModSend 2 1); Hook (str_sum "5data2") [1; 0; 0; 0; 0; 0; 0; 0];
                  Recv 1 t2 [1; 0; 0; 0; 0; 0; 0; 0]; Begin (Construct 4); End (Construct 4);
                  Recv 4 t2 [1; 0; 0; 0; 0; 0; 0; 0]; End (ModSend 2 1)]
             | _ => False
             end
  | _ => False
  end.
Proof.
  split; [|vm_compute; reflexivity]. intros log a D bs. unfold ex_spawn.
  destruct (Pos.eqb a 1); [|constructor]. constructor; [exact Logic.I|]. intros _. constructor.
Qed.

(** ** C94 *)
(** Module [d] destroys module [x] (perhaps itself) when it gets the message.  If [x] is
    registered after [d], only [x] misses the message; otherwise the module registered
    after [d] misses it. *)
Theorem C94_destroying_skips : forall hash enc desc Sources hook d x f w c D v p q,
  mreaches hash enc desc Sources (destroyer d x) hook w -> (forall log id bs, hook log id bs = MReturn) ->
  sent desc c = Some (D, v) ->
  (forall D', in_use desc D' -> hash (ty_name D') = hash (ty_name D) -> D' = D) ->
  length (enc D v) = ty_size D ->
  registered (m_log w) = p ++ d :: q -> NoDup (p ++ d :: q) -> (length (p ++ d :: q) < Sources)%nat ->
  In x (p ++ d :: q) -> wants desc D d = true ->
  (forall s, sender c = Some s -> In s (p ++ d :: q)) ->
  sender c <> Some x \/ still_reached x q = [] ->
  exists w', mrun hash enc desc Sources (destroyer d x) hook (S (S f)) w c = MOk w' /\
    m_log w' = m_log w ++ Begin c :: told hash enc desc c ++
      map (fun a => Recv a D (enc D v)) (filter (wants desc D) p) ++
      [Recv d D (enc D v); Begin (Destroy x); End (Destroy x)] ++
      map (fun a => Recv a D (enc D v)) (filter (wants desc D) (still_reached x q)) ++ [End c] /\
    registered (m_log w') = remove Pos.eq_dec x (registered (m_log w)).
Proof.
  intros hash enc desc Sources hook d x f w c D v p q R HK HC HU HL RG ND LT HX WD HS H.
  pose proof (mreach_inv desc Sources hash enc (destroyer d x) hook w R) as I.
  assert (TH : there (sender c) (m_log w)).
  { destruct (sender c) as [s|] eqn:ES; [|exact Logic.I]. cbn. rewrite RG. apply HS. reflexivity. }
  assert (RD : reaction desc hash (hash (ty_name D)) (enc D v) d = [Recv d D (enc D v)])
    by (rewrite reaction_wants by assumption; rewrite WD; reflexivity).
  destruct (send_destroying hash enc desc Sources hook HK d x f w c D v p q I HC TH RG ND LT HX RD) as [G _].
  destruct (G H) as (w' & E & A & B). exists w'. split; [exact E|]. split; [|exact B].
  rewrite A, !reactions_wants by assumption. rewrite <- !app_assoc. cbn [app]. rewrite <- !app_assoc. reflexivity.
Qed.

(** Destroying the module whose message is being distributed: the next module makes
    distribute() read the destroyed sender. *)
Theorem C94_destroyed_sender_refuted : forall hash enc desc Sources hook d x f w v p q,
  mreaches hash enc desc Sources (destroyer d x) hook w -> (forall log id bs, hook log id bs = MReturn) ->
  let D := md_sends (desc x) in
  (forall D', in_use desc D' -> hash (ty_name D') = hash (ty_name D) -> D' = D) ->
  length (enc D v) = ty_size D ->
  registered (m_log w) = p ++ d :: q -> NoDup (p ++ d :: q) -> (length (p ++ d :: q) < Sources)%nat ->
  In x (p ++ d :: q) -> wants desc D d = true -> still_reached x q <> [] ->
  exists log, mrun hash enc desc Sources (destroyer d x) hook (S (S f)) w (ModSend x v) = MUB log.
Proof.
  intros hash enc desc Sources hook d x f w v p q R HK D HU HL RG ND LT HX WD HN.
  pose proof (mreach_inv desc Sources hash enc (destroyer d x) hook w R) as I.
  assert (TH : there (Some x) (m_log w)) by (cbn; rewrite RG; exact HX).
  assert (RD : reaction desc hash (hash (ty_name D)) (enc D v) d = [Recv d D (enc D v)])
    by (rewrite reaction_wants by assumption; rewrite WD; reflexivity).
  destruct (send_destroying hash enc desc Sources hook HK d x f w (ModSend x v) D v p q I eq_refl TH RG ND LT HX RD) as [_ G].
  eexists. apply G; [reflexivity|exact HN].
Qed.

Definition ex_quiet_hook (log : list mev) (id : Z) (bs : list Z) : mbody := MReturn.
Definition ex_dw d x calls :=
  match mrun_all str_sum ex_enc ex_desc 6 (destroyer d x) ex_quiet_hook 5 (mfresh 6) calls with MOk w => w | _ => mfresh 6 end.
(** Module 3 destroys itself: module 4 does not hear of the message, module 5 does.  With
    module 2 as the victim of its own message, reading on is undefined. *)
Example C94_ex :
  let w := ex_dw 3 3 [Construct 1; Construct 2; Construct 3; Construct 4; Construct 5] in
  registered (m_log w) = [1; 2]%positive ++ 3%positive :: [4; 5]%positive /\ still_reached 3 [4; 5]%positive = [5]%positive /\
  wants ex_desc t2 3 = true /\ wants ex_desc t2 4 = true /\
  (match mrun str_sum ex_enc ex_desc 6 (destroyer 3 3) ex_quiet_hook 5 w (ModSend 2 1) with
   | MOk w' => m_log w' = m_log w ++
      [Begin (ModSend 2 1); Hook (str_sum "5data2") [1; 0; 0; 0; 0; 0; 0; 0];
       Recv 1 t2 [1; 0; 0; 0; 0; 0; 0; 0]; Recv 3 t2 [1; 0; 0; 0; 0; 0; 0; 0];
       Begin (Destroy 3); End (Destroy 3); Recv 5 t2 [1; 0; 0; 0; 0; 0; 0; 0]; End (ModSend 2 1)]
   | _ => False
   end) /\
  let w2 := ex_dw 3 2 [Construct 1; Construct 2; Construct 3; Construct 4; Construct 5] in
  match mrun str_sum ex_enc ex_desc 6 (destroyer 3 2) ex_quiet_hook 5 w2 (ModSend 2 1) with
  | MUB log => registered log = [1; 3; 4; 5]%positive
  | _ => False
  end.
Proof. vm_compute. repeat split; reflexivity. Qed.

(** ** C95 *)
(** An exception that leaves a handler, or the manager's own data(), ends the send: the
    modules after the one that threw get nothing, the registered modules are untouched. *)
Theorem C95_exception_stops : forall hash enc desc Sources handler hook f w c D v w',
  mreaches hash enc desc Sources handler hook w ->
  (forall log a D bs, never_destroys (handler log a D bs)) -> (forall log id bs, never_destroys (hook log id bs)) ->
  sent desc c = Some (D, v) ->
  (forall D', in_use desc D' -> hash (ty_name D') = hash (ty_name D) -> D' = D) ->
  length (enc D v) = ty_size D ->
  mrun hash enc desc Sources handler hook f w c = MExc w' ->
  exists inner new, m_log w' = m_log w ++ Begin c :: inner ++ [Threw c] /\
    registered (m_log w') = registered (m_log w) ++ new /\
    ((exists s u, c = ModSend s u /\ direct 0 inner = told hash enc desc c) \/
     exists p a q, registered (m_log w) ++ new = p ++ a :: q /\ wants desc D a = true /\
       direct 0 inner = told hash enc desc c ++
         map (fun b => Recv b D (enc D v)) (filter (wants desc D) p) ++ [Recv a D (enc D v)]).
Proof.
  intros hash enc desc Sources handler hook f w c D v w' R OS OH HC HU HL E.
  destruct (send_exc hash enc desc Sources handler hook _ f w c D v w' (fun a H => H) OS OH R HC E)
    as (inner & new & A & B & C).
  exists inner, new. split; [exact A|]. split; [exact B|].
  destruct C as [[C1 C2]|(p & a & q & C1 & C2 & C3)].
  - left. destruct c; cbn [told] in C1; try congruence. eexists. eexists. split; [reflexivity|exact C2].
  - right. exists p, a, q. rewrite reaction_wants in C2 by assumption.
    destruct (wants desc D a) eqn:W; [|congruence].
    split; [rewrite <- B; exact C1|]. split; [reflexivity|].
    rewrite C3, reactions_wants by assumption. rewrite filter_app. cbn [filter]. rewrite W, map_app. reflexivity.
Qed.

(** Only exceptions of handlers and of the manager's data() leave a send. *)
Theorem C95_only_handlers_throw : forall hash enc desc Sources handler hook f w c w',
  (forall log a D bs, never_throws (handler log a D bs)) -> (forall log id bs, never_throws (hook log id bs)) ->
  mrun hash enc desc Sources handler hook f w c <> MExc w'.
Proof.
  intros hash enc desc Sources handler hook f w c w' HT HK.
  exact (no_throw hash enc desc Sources handler hook HT HK f w c w').
Qed.

(** Module 3 throws on data2, so module 4 hears nothing; the program goes on. *)
Definition ex_thrower (log : list mev) (a : addr) (D : mty) (bs : list Z) : mbody :=
  if Pos.eqb a 3 then MThrow else MReturn.
Example C95_ex :
  (forall log a D bs, never_destroys (ex_thrower log a D bs)) /\
  match mrun_all str_sum ex_enc ex_desc 6 ex_thrower ex_hook 5 (mfresh 6) [Construct 1; Construct 2; Construct 3; Construct 4] with
  | MOk w => match mrun str_sum ex_enc ex_desc 6 ex_thrower ex_hook 5 w (ModSend 2 1) with
             | MExc w' => m_log w' = m_log w ++
                 [Begin (ModSend 2 1); Hook (str_sum "5data2") [1; 0; 0; 0; 0; 0; 0; 0];
                  Recv 1 t2 [1; 0; 0; 0; 0; 0; 0; 0]; Recv 3 t2 [1; 0; 0; 0; 0; 0; 0; 0];
                  Threw (ModSend 2 1)]
             | _ => False
             end
  | _ => False
  end /\
  (forall log a D bs, never_throws (ex_handler log a D bs)).
Proof.
  split; [|split; [vm_compute; reflexivity|]]; intros log a D bs.
  - unfold ex_thrower. destruct (Pos.eqb a 3); constructor.
  - unfold ex_handler. destruct (Pos.eqb a 3); [|constructor]. destruct (mty_eq_dec D t2); repeat constructor.
Qed.

Print Assumptions C36_routing.
Print Assumptions C36_send_returns.
Print Assumptions C37_payload_integrity.
Print Assumptions C37_manager_convert.
Print Assumptions C38_manager_send_routing.
Print Assumptions C39_safe_below_capacity.
Print Assumptions C39_ordered_registration.
Print Assumptions C40_full_teardown_refuted.
Print Assumptions C41_over_registration_refuted.
Print Assumptions C42_right_size.
Print Assumptions C42_any_hash.
Print Assumptions C93_newcomers_receive.
Print Assumptions C94_destroying_skips.
Print Assumptions C94_destroyed_sender_refuted.
Print Assumptions C95_exception_stops.
Print Assumptions C95_only_handlers_throw.
