(** One thread of the shared mediator, followed through a call. *)
From Verif Require Export MedShareSpec MediatorProofs2.
From Verif Require Import ObserverProofs1.

Lemma by_gthread_app t a b : by_gthread t (a ++ b) = by_gthread t a ++ by_gthread t b.
Proof. apply flat_map_app. Qed.
Lemma by_gthread_own t es : by_gthread t (map (pair t) es) = es.
Proof. induction es as [|e es IH]; [reflexivity|]. unfold by_gthread in *. cbn. rewrite Nat.eqb_refl, IH. reflexivity. Qed.
Lemma by_gthread_other t u es : u <> t -> by_gthread t (map (pair u) es) = [].
Proof.
  intros N. induction es as [|e es IH]; [reflexivity|]. unfold by_gthread in *. cbn. destruct (Nat.eqb_spec u t); [congruence|exact IH].
Qed.
Lemma firstn_nth {A} (l : list A) : forall i x, nth_error l i = Some x -> firstn (S i) l = firstn i l ++ [x].
Proof.
  induction l as [|y l IH]; intros [|i] x E; try discriminate E.
  - injection E as ->. reflexivity.
  - cbn [firstn app]. f_equal. apply (IH i x E).
Qed.
Lemma snoc_length {A} (l : list A) x : length (l ++ [x]) = S (length l).
Proof. rewrite app_length. cbn. lia. Qed.

Section One.
  Variable hash : string -> Z.
  Variable enc : mty -> Z -> list Z.
  Variable desc : addr -> mdesc.
  Notation gstep := (gstep hash desc).
  Notation gmove := (gmove hash enc desc).
  Notation grun := (grun hash enc desc).
  Notation gbegin := (gbegin hash enc desc).
  Notation reaction := (reaction desc hash).

  (** Several steps in a row inside one call. *)
  Inductive gsteps : gmem -> gpc -> gmem -> gpc -> list mev -> Prop :=
  | gsteps_nil m pc : gsteps m pc m pc []
  | gsteps_cons m pc m1 pc1 e1 m2 pc2 e2 :
      pc <> GIdle -> gstep m pc = Ok (m1, pc1, e1) -> gsteps m1 pc1 m2 pc2 e2 -> gsteps m pc m2 pc2 (e1 ++ e2).

  Lemma gsteps_app m pc m1 pc1 e1 m2 pc2 e2 :
    gsteps m pc m1 pc1 e1 -> gsteps m1 pc1 m2 pc2 e2 -> gsteps m pc m2 pc2 (e1 ++ e2).
  Proof.
    intros H. induction H as [|m pc m3 pc3 e3 m1 pc1 e1 N E H IH]; intros G; [exact G|].
    rewrite <- app_assoc. econstructor; [exact N|exact E|apply IH, G].
  Qed.
  Lemma gsteps_one m pc m1 pc1 e1 : pc <> GIdle -> gstep m pc = Ok (m1, pc1, e1) -> gsteps m pc m1 pc1 e1.
  Proof. intros N E. rewrite <- (app_nil_r e1). econstructor; [exact N|exact E|constructor]. Qed.
  Lemma gsteps_then m pc m1 pc1 m2 pc2 e2 :
    pc <> GIdle -> gstep m pc = Ok (m1, pc1, []) -> gsteps m1 pc1 m2 pc2 e2 -> gsteps m pc m2 pc2 e2.
  Proof. intros N E H. change e2 with ([] ++ e2). econstructor; [exact N|exact E|exact H]. Qed.
  Lemma gsteps_trans m pc m1 pc1 m2 pc2 e :
    gsteps m pc m1 pc1 [] -> gsteps m1 pc1 m2 pc2 e -> gsteps m pc m2 pc2 e.
  Proof. intros H G. change e with ([] ++ e). eapply gsteps_app; eassumption. Qed.

  (** The same in the machine of threads. *)
  Lemma grun_app s1 : forall w s2, grun w (s1 ++ s2) = (w' <- grun w s1 ;; grun w' s2).
  Proof.
    induction s1 as [|t s1 IH]; intros w s2; cbn; [reflexivity|]. destruct (gmove w t); cbn; auto.
  Qed.
  Lemma grun_then w s1 w1 s2 : grun w s1 = Ok w1 -> grun w (s1 ++ s2) = grun w1 s2.
  Proof. intros E. rewrite grun_app, E. reflexivity. Qed.
  Lemma gmove_in w t pc : g_pc (g_thr w t) = pc -> pc <> GIdle ->
    gmove w t = (' (m, pc', es) <- gstep (g_mem w) pc ;;
                 Ok (GW m (gput (g_thr w) t (GTh (g_calls (g_thr w t)) pc')) (g_log w ++ map (pair t) es))).
  Proof. intros E N. unfold MedShareModel.gmove. rewrite E. destruct pc; congruence || reflexivity. Qed.
  Lemma gput_same f t x : gput f t x t = x.
  Proof. unfold gput. rewrite Nat.eqb_refl. reflexivity. Qed.
  Lemma gput_other f t x a : a <> t -> gput f t x a = f a.
  Proof. intros N. unfold gput. destruct (Nat.eqb_spec a t); congruence. Qed.

  (** [t] has moved from where it was in [w]: memory, place and log are as given. *)
  Record gmoved (t : nat) (w w' : gworld) (m : gmem) (th : gthread) (es : list mev) : Prop := {
    gv_mem : g_mem w' = m;
    gv_own : g_thr w' t = th;
    gv_others : forall a, a <> t -> g_thr w' a = g_thr w a;
    gv_log : g_log w' = g_log w ++ map (pair t) es }.

  Lemma grun_steps m pc m' pc' es t : gsteps m pc m' pc' es -> forall w,
    g_mem w = m -> g_pc (g_thr w t) = pc ->
    exists k w', grun w (repeat t k) = Ok w' /\ gmoved t w w' m' (GTh (g_calls (g_thr w t)) pc') es.
  Proof.
    intros H. induction H as [m pc|m pc m1 pc1 e1 m2 pc2 e2 N E H IH]; intros w EM EP.
    - exists 0%nat, w. split; [reflexivity|]. split; [exact EM|destruct (g_thr w t); cbn in *; congruence|reflexivity|symmetry; apply app_nil_r].
    - set (w1 := GW m1 (gput (g_thr w) t (GTh (g_calls (g_thr w t)) pc1)) (g_log w ++ map (pair t) e1)).
      destruct (IH w1 eq_refl) as (k & w' & R & [A1 A2 A3 A4]); [cbn; rewrite gput_same; reflexivity|].
      exists (S k), w'. split.
      + cbn [repeat MedShareModel.grun]. rewrite (gmove_in w t pc EP N), EM, E. exact R.
      + split; [exact A1|rewrite A2; cbn; rewrite gput_same; reflexivity| |].
        * intros a NA. rewrite (A3 a NA). cbn. apply gput_other, NA.
        * rewrite A4. cbn. rewrite map_app, app_assoc. reflexivity.
  Qed.
  (** From outside a call. *)
  Lemma grun_call m c m' pc' es t w rest : gsteps m (gbegin c) m' pc' es ->
    g_mem w = m -> g_thr w t = GTh (c :: rest) GIdle ->
    exists k w', grun w (repeat t k) = Ok w' /\ gmoved t w w' m' (GTh rest pc') (Begin c :: es).
  Proof.
    intros H EM ET. set (w1 := GW (g_mem w) (gput (g_thr w) t (GTh rest (gbegin c))) (g_log w ++ [(t, Begin c)])).
    destruct (grun_steps _ _ _ _ _ t H w1 EM) as (k & w' & R & [A1 A2 A3 A4]); [cbn; rewrite gput_same; reflexivity|].
    exists (S k), w'. split.
    - cbn [repeat MedShareModel.grun]. unfold MedShareModel.gmove at 1. rewrite ET. cbn. exact R.
    - split; [exact A1|rewrite A2; cbn; rewrite gput_same; reflexivity| |rewrite A4; cbn; rewrite <- app_assoc; reflexivity].
      intros a NA. rewrite (A3 a NA). cbn. apply gput_other, NA.
  Qed.

  (** ** Sending *)
  Lemma grecv_find id bs recvs : grecv hash recvs id bs =
    Ok (match find (fun D => id =? hash (ty_name D)) recvs with
        | Some D => if (ty_size D =? length bs)%nat then Some (D, bs) else None
        | None => None
        end).
  Proof.
    induction recvs as [|D recvs IH]; [reflexivity|]. cbn [grecv find]. destruct (id =? hash (ty_name D)); [|exact IH].
    destruct (Nat.eqb_spec (ty_size D) (length bs)) as [E|N]; cbn [negb]; [|reflexivity].
    rewrite E, read_bytes_all. reflexivity.
  Qed.
  (** The sender and the module in slot [i] exist. *)
  Definition sender_there (m : gmem) (s : option addr) : Prop :=
    match s with None => True | Some a => In a (g_objs m) end.
  Lemma gsender_ok m s : sender_there m s -> gsender m s = Ok tt.
  Proof. destruct s as [a|]; cbn; [|reflexivity]. intros H. destruct (in_dec Pos.eq_dec a (g_objs m)); [reflexivity|contradiction]. Qed.
  Lemma gmodule_ok m p a tl : g_tab m = map Some p ++ Some a :: tl -> In a (g_objs m) -> gmodule m (length p) = Ok a.
  Proof.
    intros E H. unfold gmodule. rewrite E, <- (map_length (@Some positive) p), slot_app. cbn [bind].
    destruct (in_dec Pos.eq_dec a (g_objs m)); [reflexivity|contradiction].
  Qed.

  (** The module in one slot. *)
  Lemma gsteps_slot m s p a tl : g_tab m = map Some p ++ Some a :: tl -> In a (g_objs m) -> ~ In a (g_part m) ->
    sender_there m (g_snd s) -> (length p < g_cnt m)%nat ->
    gsteps m (GLoop s (length p)) m (GLoop s (S (length p))) (reaction (g_id s) (g_bs s) a).
  Proof.
    intros E HO HP HS L. unfold MediatorProofs.reaction.
    eapply gsteps_then; [discriminate|cbn [MedShareModel.gstep]; replace (length p <? g_cnt m)%nat with true by lia; reflexivity|].
    pose proof (gmodule_ok m p a tl E HO) as GM1. pose proof (gsender_ok m (g_snd s) HS) as GS.
    destruct (id_of hash desc a =? g_id s) eqn:EI.
    { apply gsteps_one; [discriminate|]. cbn. rewrite GM1. cbn. rewrite GS. cbn. rewrite EI. reflexivity. }
    eapply gsteps_then; [discriminate|cbn; rewrite GM1; cbn; rewrite GS; cbn; rewrite EI; reflexivity|].
    assert (ST : gstep m (GCall s (length p)) =
                 match match find (fun D => g_id s =? hash (ty_name D)) (md_recvs (desc a)) with
                       | Some D => if (ty_size D =? length (g_bs s))%nat then Some (D, g_bs s) else None
                       | None => None
                       end with
                 | None => Ok (m, GLoop s (S (length p)), [])
                 | Some (D, got) => if in_dec Pos.eq_dec a (g_part m) then UB else Ok (m, GHand s (length p) a, [Recv a D got])
                 end).
    { cbn. rewrite GM1. cbn. rewrite GS. cbn. rewrite grecv_find. reflexivity. }
    destruct (find (fun D => g_id s =? hash (ty_name D)) (md_recvs (desc a))) as [D|]; [|apply gsteps_one; [discriminate|exact ST]].
    destruct (ty_size D =? length (g_bs s))%nat; [|apply gsteps_one; [discriminate|exact ST]].
    destruct (in_dec Pos.eq_dec a (g_part m)); [contradiction|].
    change [Recv a D (g_bs s)] with ([Recv a D (g_bs s)] ++ []). econstructor; [discriminate|exact ST|].
    apply gsteps_one; [discriminate|reflexivity].
  Qed.
  (** Several slots. *)
  Lemma gsteps_slots m s tl l : forall p, g_tab m = map Some (p ++ l) ++ tl -> incl l (g_objs m) ->
    (forall a, In a l -> ~ In a (g_part m)) -> sender_there m (g_snd s) -> (length (p ++ l) <= g_cnt m)%nat ->
    gsteps m (GLoop s (length p)) m (GLoop s (length (p ++ l))) (flat_map (reaction (g_id s) (g_bs s)) l).
  Proof.
    induction l as [|a l IH]; intros p E HO HP HS L; [rewrite app_nil_r; constructor|]. cbn [flat_map].
    specialize (IH (p ++ [a])). rewrite <- app_assoc, snoc_length in IH. cbn [app] in IH.
    eapply gsteps_app; [|apply IH; [exact E|intros x H; apply HO; right; exact H|intros x H; apply HP; right; exact H|exact HS|exact L]].
    rewrite map_app, <- app_assoc in E. cbn [map app] in E.
    eapply gsteps_slot; [exact E|apply HO; left; reflexivity|apply HP; left; reflexivity|exact HS|].
    rewrite app_length in L. cbn in L. lia.
  Qed.
  (** The message of a call. *)
  Definition msg_of (c : mcall) (D : mty) (v : Z) : gmsg := Msg c (sender c) (hash (ty_name D)) (enc D v).
  Lemma gsteps_start m c D v : sent desc c = Some (D, v) -> sender_there m (sender c) ->
    gsteps m (gbegin c) m (GLoop (msg_of c D v) 0) (told hash enc desc c).
  Proof.
    destruct c as [a|a|a x|D' x]; cbn [sent]; intros E H; try discriminate; injection E as <- <-.
    - apply gsteps_one; [discriminate|]. cbn [gbegin MedShareModel.gbegin MedShareModel.gstep g_snd]. rewrite (gsender_ok m (Some a) H). reflexivity.
    - constructor.
  Qed.
  Lemma gsteps_end m s i : (g_cnt m <= i)%nat -> gsteps m (GLoop s i) m GIdle [End (g_call s)].
  Proof. intros L. apply gsteps_one; [discriminate|]. cbn [MedShareModel.gstep]. replace (i <? g_cnt m)%nat with false by lia. reflexivity. Qed.

  (** A whole send, nobody interfering. *)
  Lemma gsteps_send m l tl reg c D v : good_send hash enc desc reg c D v -> incl reg (g_objs m) ->
    g_tab m = map Some l ++ tl -> g_cnt m = length l -> incl l (g_objs m) -> (forall a, In a l -> ~ In a (g_part m)) ->
    exists es, gsteps m (gbegin c) m GIdle es /\ Begin c :: es = seen hash enc desc l c.
  Proof.
    intros (ES & HL & HS & HU) HR ET EC HO HP.
    assert (ST : sender_there m (sender c)).
    { destruct (sender c) as [s|] eqn:E; [|exact Logic.I]. cbn. apply HR, HS. reflexivity. }
    exists (told hash enc desc c ++ flat_map (reaction (hash (ty_name D)) (enc D v)) l ++ [End c]). split.
    - eapply gsteps_app; [apply (gsteps_start m c D v ES ST)|].
      eapply gsteps_app; [apply (gsteps_slots m (msg_of c D v) tl l [] ET HO HP ST); cbn; lia|].
      change (End c) with (End (g_call (msg_of c D v))). apply gsteps_end. cbn [app]. lia.
    - unfold seen. rewrite ES, (reactions_wants desc hash enc D (enc D v) l HL HU). reflexivity.
  Qed.
End One.
