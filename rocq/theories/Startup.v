(** Start-up: the walker threads, the channel and the consumer
    (backend/mod.rs:287-360), as a transition system.

    What is modelled: six walker threads take paths in any order, read, parse
    and send into a channel of 1000 places; the consumer is a task that has to
    be given a worker of the runtime before it starts to receive; the thread
    that runs [init_workspace] is blocked while the walkers run and only then
    awaits the consumer.

    Simplifications: reading, parsing and inserting one result are single
    steps; a walker leaves when no path is left (the crate [ignore] lets idle
    threads wait for each other); the thread [mt] (mod.rs:294) only submits the
    task and is left out; a walker does not see sending fail, as the receiver
    outlives it.  Reading or parsing that crashes or does not end, and a crash
    of the consumer, have no step: with [panic = "abort"] the process is gone. *)

From Verif Require Import Base Token Scanner Node Parser Assoc Arena Symbol EnvMonad Resolver Backend.

Section Startup.
Context {RT : Runtime} {HH : Hashing}.
Variables (fuel : nat) (disk : str -> option str).
(** Whether the runtime has a worker for the consumer while the thread that runs
    [init_workspace] is blocked in [walker.run] *)
Variable (free_worker : bool).

(** mod.rs:40: [ParseResult] *)
Definition parsed : Type := str * (list Node * Range * list perr).

(** mod.rs:326-346: [Some None] if nothing is to be sent, [None] if it crashes
    or does not end *)
Definition work (path : str) : option (option parsed) :=
  match disk path with
  | None => Some None
  | Some content =>
      match source_to_ast fuel content backend_new with
      | Done (inl r) _ => Some (Some (path, r))
      | Done (inr _) _ => Some None
      | _ => None
      end
  end.

(** mod.rs:297-309 *)
Definition insert (r : parsed) : B unit :=
  let '(path, (nodes, range, errors)) := r in index_result fuel path nodes range errors.

Inductive walker := Idle | Sending (r : parsed) | Gone.
Inductive consumer := Submitted | Receiving | Ended.
Inductive caller := Walking | Joining | Finished.

Record sys := mkSys {
  todo : list str;
  walkers : list walker;
  chan : list parsed;
  task : consumer;
  main : caller;
  state : bst
}.

(** mod.rs:289, 319 *)
Definition capacity : N := 1000.
Definition start (paths : list str) (s : bst) : sys :=
  mkSys paths (repeat Idle 6) [] Submitted Walking s.

Inductive step : sys -> sys -> Prop :=
(** mod.rs:329-333, 338: nothing to send *)
| st_skip : forall l1 p l2 a b ch t m s, work p = Some None ->
    step (mkSys (l1 ++ p :: l2) (a ++ Idle :: b) ch t m s) (mkSys (l1 ++ l2) (a ++ Idle :: b) ch t m s)
(** mod.rs:326-338 *)
| st_read : forall l1 p l2 a b ch t m s r, work p = Some (Some r) ->
    step (mkSys (l1 ++ p :: l2) (a ++ Idle :: b) ch t m s) (mkSys (l1 ++ l2) (a ++ Sending r :: b) ch t m s)
(** mod.rs:339-343: [send] waits for a free place *)
| st_send : forall l a b r ch t m s, N.of_nat (List.length ch) < capacity ->
    step (mkSys l (a ++ Sending r :: b) ch t m s) (mkSys l (a ++ Idle :: b) (ch ++ [r]) t m s)
(** the walker has nothing left to do *)
| st_leave : forall a b ch t m s,
    step (mkSys [] (a ++ Idle :: b) ch t m s) (mkSys [] (a ++ Gone :: b) ch t m s)
(** mod.rs:322-358: [walker.run] returns, the last sender is dropped *)
| st_join : forall l ws ch t s, Forall (fun w => w = Gone) ws ->
    step (mkSys l ws ch t Walking s) (mkSys l ws ch t Joining s)
(** mod.rs:295: the task gets a worker *)
| st_start : forall l ws ch m s, free_worker = true \/ m = Joining ->
    step (mkSys l ws ch Submitted m s) (mkSys l ws ch Receiving m s)
(** mod.rs:296-310 *)
| st_receive : forall l ws r ch m s s', insert r s = Done tt s' ->
    step (mkSys l ws (r :: ch) Receiving m s) (mkSys l ws ch Receiving m s')
(** mod.rs:296: no sender is left *)
| st_end : forall l ws s,
    step (mkSys l ws [] Receiving Joining s) (mkSys l ws [] Ended Joining s)
(** mod.rs:360-382 *)
| st_finish : forall l ws ch s s', rebuild_global s = Done tt s' ->
    step (mkSys l ws ch Ended Joining s) (mkSys l ws ch Ended Finished s').

Inductive steps : sys -> sys -> Prop :=
| steps_none : forall x, steps x x
| steps_more : forall x y z, step x y -> steps y z -> steps x z.

End Startup.
