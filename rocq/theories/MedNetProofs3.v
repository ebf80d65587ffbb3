(** Programs that do not copy managers; copies of managers that are left alone. *)
From Verif Require Export MedNetProofs2.
From Verif Require Import ObserverProofs1 MediatorProofs.

Lemma bput_same {A} (f : addr -> option A) a x : bput f a x a = x.
Proof. unfold bput. destruct (Pos.eq_dec a a); [reflexivity|contradiction]. Qed.
Lemma bput_other {A} (f : addr -> option A) a b x : b <> a -> bput f a x b = f b.
Proof. intros H. unfold bput. destruct (Pos.eq_dec b a); [contradiction|reflexivity]. Qed.
Lemma listed_edit b g f M h :
  listed (Book (edit b g f) M) h =
  if Pos.eq_dec h g then match mgr_at b g with Some (_, l) => f l | None => [] end else listed b h.
Proof.
  unfold listed, edit. cbn [mgr_at]. destruct (Pos.eq_dec h g) as [E|N].
  - subst h. destruct (mgr_at b g) as [[n l]|] eqn:E; [rewrite bput_same; reflexivity|rewrite E; reflexivity].
  - destruct (mgr_at b g) as [[n l]|]; [rewrite bput_other by exact N; reflexivity|reflexivity].
Qed.
Lemma born_quiet log e : kquiet e -> born (log ++ [e]) = born log.
Proof. intros Q. rewrite born_snoc. destruct e; [reflexivity..|destruct Q]. Qed.

Lemma snoc_split {A} (l : list A) e l1 x l2 : l ++ [e] = l1 ++ x :: l2 ->
  (l2 = [] /\ l1 = l /\ x = e) \/ exists l2', l2 = l2' ++ [e] /\ l = l1 ++ x :: l2'.
Proof.
  intros H. destruct (@exists_last _ (x :: l2) ltac:(discriminate)) as (q & y & E).
  rewrite E, app_assoc in H. apply app_inj_tail in H. destruct H as [H ->].
  destruct q as [|z q]; cbn in E; inversion E; subst.
  - left. rewrite app_nil_r. tauto.
  - right. exists q. split; reflexivity.
Qed.

(** A handler is only started for a module that exists and is listed, with a message of
    a type it receives. *)
Definition recv_fine (l : list kev) : Prop :=
  forall l1 a D bs l2, l = l1 ++ KRecv a D bs :: l2 ->
    exists d m g, mod_at (booked l1) a = Some (d, m) /\ In a (listed (booked l1) g) /\ In D (md_recvs d) /\ length bs = ty_size D.
Lemma recv_fine_snoc l e : recv_fine l -> match e with KRecv _ _ _ => False | _ => True end -> recv_fine (l ++ [e]).
Proof.
  intros H HE l1 a D bs l2 E. apply snoc_split in E. destruct E as [(_ & _ & E)|(l2' & _ & E)].
  - subst e. destruct HE.
  - apply (H l1 a D bs l2' E).
Qed.

Record tidyJ (l : list kev) : Prop := {
  tj_own : forall g x, In x (listed (booked l) g) -> exists d, mod_at (booked l) x = Some (d, g) /\ born l x = Some (KMod x d g);
  tj_nodup : forall g, NoDup (listed (booked l) g);
  tj_recv : forall l1 x D bs l2, l = l1 ++ KRecv x D bs :: l2 -> exists d g, born l1 x = Some (KMod x d g)
}.
Lemma tidyJ_nil : tidyJ [].
Proof. split; [intros g x []|intros g; constructor|]. intros [|? l1] x D bs l2 E; discriminate. Qed.
Lemma tidyJ_recv_snoc l e : (forall l1 x D bs l2, l = l1 ++ KRecv x D bs :: l2 -> exists d g, born l1 x = Some (KMod x d g)) ->
  match e with KRecv _ _ _ => False | _ => True end ->
  forall l1 x D bs l2, l ++ [e] = l1 ++ KRecv x D bs :: l2 -> exists d g, born l1 x = Some (KMod x d g).
Proof.
  intros H HE l1 a D bs l2 E. apply snoc_split in E. destruct E as [(_ & _ & E)|(l2' & _ & E)].
  - subst e. destruct HE.
  - apply (H l1 a D bs l2' E).
Qed.
Lemma tidyJ_quiet l e : tidyJ l -> kquiet e -> match e with KRecv _ _ _ => False | _ => True end -> tidyJ (l ++ [e]).
Proof.
  intros [A B C] Q R. split; [| |apply tidyJ_recv_snoc; assumption]; rewrite booked_quiet by exact Q; [|exact B].
  rewrite born_quiet by exact Q. exact A.
Qed.
Lemma tidyJ_recv l (g : addr) a (d : mdesc) (m : addr) D bs : tidyJ l -> In a (listed (booked l) g) ->
  mod_at (booked l) a = Some (d, m) -> In D (md_recvs d) -> length bs = ty_size D -> tidyJ (l ++ [KRecv a D bs]).
Proof.
  intros [A B C] HL _ _ _. split; [rewrite booked_quiet, born_quiet by exact Logic.I; exact A|rewrite booked_quiet by exact Logic.I; exact B|].
  intros l1 x E bs' l2 H. apply snoc_split in H. destruct H as [(_ & -> & H)|(l2' & _ & H)].
  - inversion H; subst. destruct (A g a HL) as (d' & _ & HB). exists d', g. exact HB.
  - apply (C l1 x E bs' l2' H).
Qed.
Lemma tidyJ_send l c : tidyJ l -> sending c -> tidyJ (l ++ [KEnd c]).
Proof.
  intros [A B C] S. assert (EB : booked (l ++ [KEnd c]) = booked l) by (rewrite booked_snoc; destruct c; try destruct S; reflexivity).
  assert (EN : born (l ++ [KEnd c]) = born l) by (rewrite born_snoc; destruct c; try destruct S; reflexivity).
  split; [rewrite EB, EN; exact A|rewrite EB; exact B|apply tidyJ_recv_snoc; [exact C|exact Logic.I]].
Qed.

Lemma NoDup_snoc (l : list addr) a : NoDup l -> ~ In a l -> NoDup (l ++ [a]).
Proof.
  induction 1 as [|x l NI ND IH]; intros N; cbn; [repeat constructor; intros []|].
  constructor; [|apply IH; intros H; apply N; right; exact H].
  rewrite in_app_iff. intros [H|[H|[]]]; [contradiction|]. subst. apply N. left. reflexivity.
Qed.
Lemma remove_first_incl a (l : list addr) x : In x (remove_first a l) -> In x l.
Proof.
  induction l as [|y l IH]; cbn [remove_first]; [tauto|]. destruct (Pos.eq_dec y a); [intros H; right; exact H|].
  intros [H|H]; [left; exact H|right; apply IH, H].
Qed.
Lemma remove_first_NoDup a (l : list addr) : NoDup l -> NoDup (remove_first a l) /\ ~ In a (remove_first a l).
Proof.
  induction 1 as [|x l NI ND [IH1 IH2]]; cbn [remove_first]; [split; [constructor|intros []]|].
  destruct (Pos.eq_dec x a) as [E|N]; [subst; split; assumption|]. split.
  - constructor; [|exact IH1]. intros H. apply NI. apply (remove_first_incl a l x H).
  - intros [H|H]; [contradiction|contradiction].
Qed.

Lemma tidyJ_end l c : tidyJ l -> tidy c -> ~ fault (booked l) (booked l) c -> ~ sending c -> tidyJ (l ++ [KEnd c]).
Proof.
  intros [A B C] T NF NS.
  assert (R : forall l1 x D bs l2, l ++ [KEnd c] = l1 ++ KRecv x D bs :: l2 -> exists d g, born l1 x = Some (KMod x d g))
    by (apply tidyJ_recv_snoc; [exact C|exact Logic.I]).
  destruct c as [g n|g h|g h|g|a d g|a c|a|a g|a v|g D v]; cbn [tidy] in T; try contradiction; cbn [fault] in NF;
    (split; [| |exact R]); rewrite booked_snoc, ?born_snoc; cbn [book_step born_step].
  - intros g1 x. unfold listed. cbn [mgr_at]. destruct (Pos.eq_dec g1 g) as [E|N].
    + subst g1. rewrite bput_same. intros [].
    + rewrite bput_other by exact N. apply A.
  - intros g1. unfold listed. cbn [mgr_at]. destruct (Pos.eq_dec g1 g) as [E|N].
    + subst g1. rewrite bput_same. constructor.
    + rewrite bput_other by exact N. apply B.
  - intros g1 x. unfold listed. cbn [mgr_at]. destruct (Pos.eq_dec g1 g) as [E|N].
    + subst g1. rewrite bput_same. intros [].
    + rewrite bput_other by exact N. apply A.
  - intros g1. unfold listed. cbn [mgr_at]. destruct (Pos.eq_dec g1 g) as [E|N].
    + subst g1. rewrite bput_same. constructor.
    + rewrite bput_other by exact N. apply B.
  - intros g1 x. rewrite listed_edit. cbn [mod_at]. intros H.
    assert (NA : mod_at (booked l) a = None) by (destruct (mod_at (booked l) a); [exfalso; apply NF; left; discriminate|reflexivity]).
    assert (OLD : forall g2, In x (listed (booked l) g2) -> exists d0, bput (mod_at (booked l)) a (Some (d, g)) x = Some (d0, g2) /\
              bput (born l) a (Some (KMod a d g)) x = Some (KMod x d0 g2)).
    { intros g2 H2. destruct (A g2 x H2) as (d0 & H3 & H4). assert (NX : x <> a) by (intros ->; congruence).
      exists d0. rewrite !bput_other by exact NX. tauto. }
    destruct (Pos.eq_dec g1 g) as [E|N]; [subst g1|apply OLD, H].
    destruct (mgr_at (booked l) g) as [[n lst]|] eqn:EM; [|destruct H].
    apply in_app_or in H. destruct H as [H|[H|[]]].
    + apply OLD. unfold listed. rewrite EM. exact H.
    + subst x. exists d. rewrite !bput_same. split; reflexivity.
  - intros g1. rewrite listed_edit. destruct (Pos.eq_dec g1 g) as [E|N]; [|apply B].
    pose proof (B g) as BG. pose proof (A g) as AG. unfold listed in BG, AG.
    destruct (mgr_at (booked l) g) as [[n lst]|]; [|constructor].
    apply NoDup_snoc; [exact BG|]. intros H. destruct (AG a H) as (d0 & H3 & _). apply NF. left. rewrite H3. discriminate.
  - intros g1 x H. assert (H' : In x (listed (booked l) g1)) by exact H. destruct (A g1 x H') as (d0 & H3 & H4).
    assert (NX : x <> a) by (intros ->; apply NF; left; rewrite H3; discriminate).
    exists d0. cbn [mod_at]. rewrite !bput_other by exact NX. tauto.
  - exact B.
  - intros g1 x H. destruct (mod_at (booked l) a) as [[d0 g0]|] eqn:EA; [|exfalso; apply NF; exact Logic.I].
    rewrite listed_edit in H. cbn [mod_at].
    assert (X : In x (listed (booked l) g1) /\ x <> a).
    { destruct (Pos.eq_dec g1 g0) as [E|N].
      - subst g1. pose proof (B g0) as BG. unfold listed in *. destruct (mgr_at (booked l) g0) as [[n lst]|]; [|destruct H].
        split; [apply (remove_first_incl a lst x H)|]. intros ->. apply (proj2 (remove_first_NoDup a lst BG)). exact H.
      - split; [exact H|]. intros ->. destruct (A g1 a H) as (d1 & H3 & _). congruence. }
    destruct X as [H1 NX]. destruct (A g1 x H1) as (d1 & H3 & H4). exists d1. rewrite !bput_other by exact NX. tauto.
  - intros g1. destruct (mod_at (booked l) a) as [[d0 g0]|] eqn:EA; [|exfalso; apply NF; exact Logic.I].
    rewrite listed_edit. destruct (Pos.eq_dec g1 g0) as [E|N]; [|apply B].
    pose proof (B g0) as BG. unfold listed in BG. destruct (mgr_at (booked l) g0) as [[n lst]|]; [|constructor].
    apply remove_first_NoDup, BG.
Qed.

(** ** a copy of a manager that nobody uses to construct modules *)
Definition frozen (h : addr) (x : nat * list addr) (l : list kev) : Prop :=
  mgr_at (booked l) h = Some x /\ forall a d m, mod_at (booked l) a = Some (d, m) -> m <> h.
Lemma frozen_quiet h x l e : frozen h x l -> kquiet e -> frozen h x (l ++ [e]).
Proof. unfold frozen. intros H Q. rewrite booked_quiet by exact Q. exact H. Qed.
Lemma frozen_send h x l c : frozen h x l -> sending c -> frozen h x (l ++ [KEnd c]).
Proof. unfold frozen. intros H Q. rewrite booked_snoc. destruct c; try destruct Q; exact H. Qed.
Lemma edit_other b g f h : h <> g -> edit b g f h = mgr_at b h.
Proof. intros N. unfold edit. destruct (mgr_at b g) as [[n l]|]; [apply bput_other, N|reflexivity]. Qed.
Lemma frozen_end h x l c : frozen h x l -> leaves_alone h c -> ~ fault (booked l) (booked l) c -> ~ sending c ->
  frozen h x (l ++ [KEnd c]).
Proof.
  intros [A B] T NF NS. unfold frozen. rewrite booked_snoc.
  destruct c as [g n|g h'|g h'|g|a d g|a c|a|a g|a v|g D v]; cbn [leaves_alone] in T; cbn [book_step mgr_at mod_at].
  1-4: split; [rewrite bput_other by congruence; exact A|exact B].
  - split; [rewrite edit_other by congruence; exact A|]. intros a1 d1 m1. unfold bput.
    destruct (Pos.eq_dec a1 a); [intros E; inversion E; subst; exact T|apply B].
  - split; [exact A|]. intros a1 d1 m1. unfold bput. destruct (Pos.eq_dec a1 a); apply B.
  - destruct (mod_at (booked l) a) as [[d0 g0]|] eqn:EA; [|exfalso; apply NF; cbn [fault]; rewrite EA; exact Logic.I].
    split; [rewrite edit_other; [exact A|]|].
    + intros E. apply (B a d0 g0 EA). symmetry. exact E.
    + intros a1 d1 m1. unfold bput. destruct (Pos.eq_dec a1 a); [discriminate|apply B].
  - split; [exact A|]. intros a1 d1 m1. unfold bput.
    destruct (Pos.eq_dec a1 a) as [E|N]; [|apply B]. destruct (mod_at (booked l) a) as [[d0 g0]|]; [|discriminate].
    intros E1. inversion E1; subst. exact T.
  - exfalso. apply NS. exact Logic.I.
  - exfalso. apply NS. exact Logic.I.
Qed.

(** ** the instances *)
Section Instances.
  Variable hash : string -> Z.
  Variable enc : mty -> Z -> list Z.
  Variable handler : list kev -> addr -> mty -> list Z -> kbody.
  Variable hook : list kev -> addr -> Z -> list Z -> kbody.
  Variable leaves : list kev -> addr -> Z -> list Z -> list Z.
  Hypothesis leaves_len : forall log g id bs, length (leaves log g id bs) = length bs.
  Notation krun_all := (krun_all hash enc handler hook leaves).

  Lemma any_safe fuel cs : forall w, kinv w -> recv_fine (k_log w) ->
    match krun_all fuel w cs with
    | KOk w' => kinv w' /\ recv_fine (k_log w') | KUB log => stuck log /\ recv_fine log | KFuel => True end.
  Proof.
    intros w I R.
    apply (krun_all_safe hash enc handler hook leaves leaves_len (fun _ => True)
             (fun _ _ _ _ => kcalls_all _) (fun _ _ _ _ => kcalls_all _) recv_fine).
    - intros l c H. apply recv_fine_snoc; [exact H|exact Logic.I].
    - intros l g id bs H. apply recv_fine_snoc; [exact H|exact Logic.I].
    - intros l g a d m D bs H HL HM HD HB l1 a' D' bs' l2 E. apply snoc_split in E. destruct E as [(_ & -> & E)|(l2' & _ & E)].
      + inversion E; subst. exists d, m, g. tauto.
      + apply (H l1 a' D' bs' l2' E).
    - intros l c H _ _ _. apply recv_fine_snoc; [exact H|exact Logic.I].
    - intros l c H _. apply recv_fine_snoc; [exact H|exact Logic.I].
    - split; assumption.
    - apply Forall_forall. intros; exact Logic.I.
  Qed.
  Lemma recv_fine_nil : recv_fine [].
  Proof. intros [|? l1] x D bs l2 E; discriminate. Qed.
  Lemma reaches_inv w : kreaches hash enc handler hook leaves w -> kinv w.
  Proof.
    intros (fuel & cs & E). pose proof (any_safe fuel cs kfresh kinv_fresh recv_fine_nil) as H. rewrite E in H. apply H.
  Qed.

  Lemma tidy_safe fuel cs w : (forall log a D bs, kcalls tidy (handler log a D bs)) ->
    (forall log g id bs, kcalls tidy (hook log g id bs)) -> Forall tidy cs -> kinv w -> tidyJ (k_log w) ->
    match krun_all fuel w cs with
    | KOk w' => kinv w' /\ tidyJ (k_log w') | KUB log => stuck log /\ tidyJ log | KFuel => True end.
  Proof.
    intros HH HK HC I T.
    apply (krun_all_safe hash enc handler hook leaves leaves_len tidy HH HK tidyJ).
    - intros l c H. apply tidyJ_quiet; [exact H|exact Logic.I..].
    - intros l g id bs H. apply tidyJ_quiet; [exact H|exact Logic.I..].
    - exact tidyJ_recv.
    - exact tidyJ_end.
    - exact tidyJ_send.
    - split; assumption.
    - exact HC.
  Qed.

  Lemma frozen_safe fuel cs w h x : (forall log a D bs, kcalls (leaves_alone h) (handler log a D bs)) ->
    (forall log g id bs, kcalls (leaves_alone h) (hook log g id bs)) -> Forall (leaves_alone h) cs -> kinv w -> frozen h x (k_log w) ->
    match krun_all fuel w cs with
    | KOk w' => kinv w' /\ frozen h x (k_log w') | KUB log => stuck log /\ frozen h x log | KFuel => True end.
  Proof.
    intros HH HK HC I T.
    apply (krun_all_safe hash enc handler hook leaves leaves_len (leaves_alone h) HH HK (frozen h x)).
    - intros l c H. apply frozen_quiet; [exact H|exact Logic.I].
    - intros l g id bs H. apply frozen_quiet; [exact H|exact Logic.I].
    - intros l g a d m D bs H _ _ _ _. apply frozen_quiet; [exact H|exact Logic.I].
    - intros l c H. apply frozen_end, H.
    - intros l c H. apply frozen_send, H.
    - split; assumption.
    - exact HC.
  Qed.
End Instances.
