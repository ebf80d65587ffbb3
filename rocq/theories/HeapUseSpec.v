(** Vocabulary for callbacks that use the heap. *)
From Verif Require Export HeapUseModel.

(** The call can run the callback: a refused request. *)
Definition refused (o : op) (r : Z) : Prop :=
  match o with Alloc _ | Calloc _ _ => r = 0 | _ => False end.

(** A well-behaved callback: after every history [t] of permitted calls it makes only
    permitted calls, and it does not replace itself.  After each of its calls it goes on
    with whatever that call returned, and whatever nested callbacks have done. *)
Fixpoint polite (c : cfg) (h0 : heap) (t : list event) (b : hbody) : Prop :=
  match b with
  | HReturn => True
  | HDo o k =>
      (forall h l, session c h0 [] t h l -> permitted l o) /\ (forall x, o <> OnFail x) /\
      forall r f rest, rest = [] \/ refused o r ->
        polite c h0 (t ++ (o, r, f) :: rest) (k (t ++ (o, r, f) :: rest))
  end.

(** A callback that gives memory back, writes, but does not ask for memory. *)
Fixpoint never_asks (b : hbody) : Prop :=
  match b with
  | HReturn => True
  | HDo o k => match o with Alloc _ | Calloc _ _ => False | _ => True end /\ forall t, never_asks (k t)
  end.

(** A callback that gives back every block the client has, according to the history;
    [f] is free_heap_size() after construction. *)
Fixpoint table (f : Z) (l : list held) (t : list event) : list held :=
  match t with
  | [] => l
  | (o, r, f1) :: t => table f1 (hold l o r f f1) t
  end.
Definition free_all (bs : list held) : hbody :=
  fold_right (fun b k => HDo (Free (hd_ptr b)) (fun _ => k)) HReturn bs.
Definition give_all_back (f : Z) (t : list event) : hbody := free_all (table f [] t).

(** Is a callback set after the history [t]?  Does the call [e], the next in history [t],
    run it: a refused request other than a callocate whose product does not fit. *)
Definition callback_set (t : list event) : bool :=
  fold_left (fun b (e : event) => match e with (OnFail x, _, _) => x | _ => b end) t false.
Definition alarm (t : list event) (e : event) : bool := alarms (callback_set t) [e] =? 1.

(** [plays cb t b rest]: running the callback [b] in history [t] makes the calls [rest]:
    its own, and after each one those of the callback [cb] it sets off, if it does. *)
Inductive plays (cb : list event -> hbody) : list event -> hbody -> list event -> Prop :=
| plays_return t : plays cb t HReturn []
| plays_call t o k r f inner rest :
    reacts cb t (o, r, f) inner ->
    plays cb (t ++ (o, r, f) :: inner) (k (t ++ (o, r, f) :: inner)) rest ->
    plays cb t (HDo o k) ((o, r, f) :: inner ++ rest)
with reacts (cb : list event -> hbody) : list event -> event -> list event -> Prop :=
| reacts_runs t e inner : alarm t e = true -> plays cb (t ++ [e]) (cb (t ++ [e])) inner -> reacts cb t e inner
| reacts_not t e : alarm t e = false -> reacts cb t e [].
