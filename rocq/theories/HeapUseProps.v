(** Properties C96 and C97: on_fail callbacks that use the heap, and threads. *)
From Verif Require Import HeapUseProofs.

(** ** C96 *)

(** Whatever the callback does with the heap, a call gives the result it would have given
    without it; the callback runs exactly if the request was refused while one was set,
    and its calls act as if made after the call. *)
Theorem C96_callback_acts_afterwards : forall c cb h0 fuel h t l o,
  placed c -> roomy c -> construct c = Ok h0 -> (forall t, polite c h0 t (cb t)) ->
  session c h0 [] t h l -> permitted l o ->
  match exec c cb fuel false h t o with
  | Ok (h', t', r) => exists h1 rest l', apply c h o = Ok (h1, r) /\
      t' = t ++ (o, r, free_heap_size h1) :: rest /\
      session c h1 (hold l o r (free_heap_size h) (free_heap_size h1)) rest h' l' /\
      reacts cb t (o, r, free_heap_size h1) rest
  | UB => False
  | Fuel => True
  end.
Proof. exact exec_after. Qed.

(** If the callback never asks for memory, every call returns. *)
Theorem C96_quiet_callback_returns : forall c cb h0 h t l o,
  placed c -> roomy c -> construct c = Ok h0 -> (forall t, polite c h0 t (cb t)) ->
  (forall t, never_asks (cb t)) -> session c h0 [] t h l -> permitted l o ->
  exists h' t' r, exec c cb 2 false h t o = Ok (h', t', r).
Proof.
  intros c cb h0 h t l o PL RM C0 CB Q S P.
  destruct (quiet_exec c PL RM cb h0 C0 CB 0 h t l o Q S P) as ([[h' t'] r] & E).
  exists h', t', r. exact E.
Qed.

(** If the callback first asks again for as much, or more, the failing call never
    returns: the callback calls itself for ever. *)
Theorem C96_retry_never_returns : forall c cb n h l,
  placed c -> roomy c -> 0 < n ->
  (forall t, exists m k, cb t = HDo (Alloc m) k /\ n <= m < W64) ->
  reachable c h l -> h_cb h = true -> n < W64 -> (forall a, ~ free_window c l a n) ->
  forall fuel t, exec c cb fuel false h t (Alloc n) = Fuel.
Proof.
  intros c cb n h l PL RM NP CB R HC NW F fuel t.
  apply (retry c cb n PL RM NP CB fuel false h l t n R HC); [lia|exact F].
Qed.

(** The callback gives back every block: the failing call still returns null, although
    the memory is there once it has returned. *)
Definition ret_of (x : res (heap * list event * Z)) : option Z :=
  match x with Ok (_, _, r) => Some r | _ => None end.
Example C96_ex_rescue :
  (forall t, polite c_ex h_ex t (give_all_back 240 t)) /\ (forall t, never_asks (give_all_back 240 t)) /\
  match exec_all c_ex (give_all_back 240) 3 h_ex [] [OnFail true; Alloc 100; Alloc 40; Alloc 200] with
  | Ok (h, t) => free_heap_size h = 240 /\
      t = [(OnFail true, 0, 240); (Alloc 100, 65584, 120); (Alloc 40, 65704, 64); (Alloc 200, 0, 64);
           (Free 65704, 0, 120); (Free 65584, 0, 240)] /\
      ret_of (exec c_ex (give_all_back 240) 3 false h t (Alloc 200)) = Some 65584
  | _ => False
  end.
Proof.
  split; [intros t; exact (give_all_back_polite c_ex h_ex t c_ex_placed c_ex_roomy h_ex_ok)|].
  split; [intros t; apply free_all_quiet|]. vm_compute. auto.
Qed.
(** 200 bytes do not fit beside 100: a callback that retries. *)
Example C96_ex_retry :
  let h := fst (state_after [OnFail true; Alloc 100]) in
  h_cb h = true /\ ret_of (exec c_ex (fun _ => HReturn) 2 false h [] (Alloc 200)) = Some 0 /\
  exec c_ex (fun _ => HDo (Alloc 200) (fun _ => HReturn)) 100 false h [] (Alloc 200) = Fuel.
Proof. vm_compute. auto. Qed.

(** ** C97 (violated by the code: no lock, though the calls for one are there) *)

(** The steps of one undisturbed thread are allocate. *)
Theorem C97_alone : forall c h n q,
  trun c h (TStart n) q [true; true; true] = ('(h', r) <- allocate c h n ;; Ok (h', TDone r, q)).
Proof. exact alone. Qed.

(** Wherever a request can be served, two threads making it can both get the same block. *)
Theorem C97_two_threads_refuted : forall c h l n h1 r,
  placed c -> roomy c -> reachable c h l -> is_size n -> allocate c h n = Ok (h1, r) -> r <> 0 ->
  exists sched h', trun c h (TStart n) (TStart n) sched = Ok (h', TDone r, TDone r).
Proof.
  intros c h l n h1 r PL RM R N A NZ. destruct (same_block c h l n h1 r PL RM R N A NZ) as (h' & E).
  exists [true; false; true; false; true; false], h'. exact E.
Qed.

Example C97_ex :
  match trun c_ex h_ex (TStart 20) (TStart 20) [true; false; true; false; true; false] with
  | Ok (_, p, q) => p = TDone 65584 /\ q = TDone 65584
  | _ => False
  end /\
  match trun c_ex h_ex (TStart 20) (TStart 20) [true; true; true; false; false; false] with
  | Ok (_, p, q) => p = TDone 65584 /\ q = TDone 65624
  | _ => False
  end.
Proof. vm_compute. auto. Qed.

Print Assumptions C96_callback_acts_afterwards.
Print Assumptions C96_quiet_callback_returns.
Print Assumptions C96_retry_never_returns.
Print Assumptions C97_alone.
Print Assumptions C97_two_threads_refuted.
