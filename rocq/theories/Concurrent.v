(** Requests that are served at the same time.

    tower-lsp runs the handlers as futures of their own, and a search for uses
    (references, rename) spawns one task per file.  The shared state is behind a
    lock: what happens between taking and releasing it is one step here, and
    other requests and tasks run between these steps in any order.

    Simplification: a task that panics ends the run (tokio would go on with the
    other tasks); the two locks that a task holds (mod.rs:250 and 253) are taken
    as one; that they cannot block each other is shown for the model of the locks
    at the end. *)

From Verif Require Import Base Token Node Assoc Arena Symbol EnvMonad Resolver Backend SpecServer.

Section Concurrent.
Context {RT : Runtime}.

Definition found_in : Type := list (str * FileReferenceMap).

(** mod.rs:239-274: a task of a search before it reads the file, and with the
    text while it waits for the lock *)
Inductive task := Unread (path : str) | Loaded (path content : str).
Definition task_path (t : task) : str := match t with Unread p => p | Loaded p _ => p end.

(** mod.rs:250-273: what a task does while it holds the locks *)
Definition run_task {HH : Hashing} (fuel : nat) (path content : str) (found : found_in) : B found_in :=
  elet parsed <- source_to_ast fuel content in
  match parsed with
  | inr _ => eret found
  | inl (nodes, _, _) =>
      elet o <- analyse fuel path nodes in
      eret (match o with
            | None => found
            | Some m => put str_eqb path m found
            end)
  end.

(** One step of a task of a search for [name]: mod.rs:240-246 reads the file,
    mod.rs:248-250 leaves if the name is not in it. *)
Inductive task_step {HH : Hashing} (fuel : nat) (disk : str -> option str) (name : str)
  : list task * found_in * bst -> list task * found_in * bst -> Prop :=
| step_missing : forall l r p found s, disk p = None ->
    task_step fuel disk name (l ++ Unread p :: r, found, s) (l ++ r, found, s)
| step_without : forall l r p content found s, disk p = Some content -> contains content name = false ->
    task_step fuel disk name (l ++ Unread p :: r, found, s) (l ++ r, found, s)
| step_load : forall l r p content found s, disk p = Some content -> contains content name = true ->
    task_step fuel disk name (l ++ Unread p :: r, found, s) (l ++ Loaded p content :: r, found, s)
| step_analyse : forall l r p content found found' s s', run_task fuel p content found s = Done found' s' ->
    task_step fuel disk name (l ++ Loaded p content :: r, found, s) (l ++ r, found', s').

(** mod.rs:221-230: the paths of the indexed files, one task for each *)
Definition spawn_tasks {HH : Hashing} (s : bst) : list task := map Unread (map fst (h_order (b_files s))).

(** A request that is being served between two of its steps: the target and
    the new name, if it is a rename *)
Inductive flight :=
| Chosen (target : N) (new_name : str)
| Named (target : N) (name : str) (new_name : option str)
| Searching (target : N) (name : str) (new_name : option str) (tasks : list task) (found : found_in).

Definition searches (e : event) : bool :=
  match e with EvReferences _ _ | EvRename _ _ _ => true | _ => false end.

(** A step of the server.  Each comes with the contents of the file system at
    that time, the bound of the recursions and the orders of the hash maps. *)
Inductive server_step (HH : Hashing) (fuel : nat) (disk : str -> option str)
    (order : FileReferenceMap -> FileReferenceMap) : bst * list flight -> bst * list flight -> Prop :=
(** A request or notification that takes the lock once *)
| serve_event : forall e s s' fs, searches e = false -> serve fuel disk order e s = Done tt s' ->
    server_step HH fuel disk order (s, fs) (s', fs)
(** mod.rs:713-720 *)
| serve_references : forall path p suc name s s' fs, symbol_under_cursor path p s = Done (Some (suc, name)) s' ->
    server_step HH fuel disk order (s, fs) (s', Named suc name None :: fs)
(** mod.rs:766-777 *)
| serve_rename : forall path p new m nuc s fs, find str_eqb path (b_refs s) = Some m ->
    referenced_symbol order p m = Some nuc ->
    server_step HH fuel disk order (s, fs) (s, Chosen nuc new :: fs)
(** mod.rs:779, under a lock of its own *)
| serve_name : forall nuc new d s s' l r, e_data nuc s = Done d s' ->
    server_step HH fuel disk order (s, l ++ Chosen nuc new :: r) (s', l ++ Named nuc (y_name d) (Some new) :: r)
(** mod.rs:222-229, under a lock of its own *)
| serve_spawn : forall target name new s l r,
    server_step HH fuel disk order (s, l ++ Named target name new :: r)
      (s, l ++ Searching target name new (spawn_tasks s) [] :: r)
(** mod.rs:239-274 *)
| serve_task : forall target name new tasks found tasks' found' s s' l r,
    task_step fuel disk name (tasks, found, s) (tasks', found', s') ->
    server_step HH fuel disk order (s, l ++ Searching target name new tasks found :: r)
      (s', l ++ Searching target name new tasks' found' :: r)
(** mod.rs:276-284, 731-754, 789-820: the answer *)
| serve_answer : forall target name new found s l r,
    server_step HH fuel disk order (s, l ++ Searching target name new [] found :: r) (s, l ++ r).

(** mod.rs:731-753 *)
Definition places {HH : Hashing} (target : N) (found : found_in) : list (str * Range) :=
  flat_map (fun f =>
    match find N.eqb target (snd f) with
    | Some rs => map (fun r => (fst f, get_range r)) rs
    | None => []
    end) (rev (h_order found)).

(** The states of the server, with the requests in flight *)
Inductive running : bst * list flight -> Prop :=
| running_start : running (backend_new, [])
| running_step : forall HH fuel disk order c c', running c -> server_step HH fuel disk order c c' -> running c'.

End Concurrent.

(** * The locks *)

(** The lock of the state (mod.rs:74) and that of the results of each search
    (mod.rs:230) *)
Inductive lock := State | Results (search : nat).
(** [Join i] waits for all tasks of the search [i] (mod.rs:276-282). *)
Inductive instruction := Take (l : lock) | Leave (l : lock) | Join (search : nat).
Definition program : Type := list instruction.

(** What the handlers and tasks do with the locks.  Waiting for the editor or
    the file system is left out. *)
Inductive threads_of : option nat -> program -> Prop :=
(** mod.rs:642-700, 823-887 *)
| thread_request : threads_of None [Take State; Leave State]
(** mod.rs:702-754: the lock of the results is taken when the tasks are done. *)
| thread_references : forall i, threads_of None
    [Take State; Leave State; Take State; Leave State; Join i; Take (Results i); Leave (Results i)]
(** mod.rs:756-821 *)
| thread_rename : forall i, threads_of None
    [Take State; Leave State; Take State; Leave State; Take State; Leave State; Join i; Take (Results i); Leave (Results i)]
(** mod.rs:239-274: files that cannot be read or do not contain the name, that
    cannot be parsed, and the others *)
| thread_skips : forall i, threads_of (Some i) []
| thread_fails : forall i, threads_of (Some i) [Take State; Leave State]
| thread_analyses : forall i, threads_of (Some i) [Take State; Take (Results i); Leave (Results i); Leave State].

(** A thread with the search that it is a task of and what is left of its program *)
Record thread := mkThread { th_task : option nat; th_left : program }.

(** A thread holds a lock if it will leave it before it takes it again. *)
Fixpoint holds (l : lock) (p : program) : Prop :=
  match p with
  | [] => False
  | Leave x :: r => x = l \/ holds l r
  | Take x :: r => x <> l /\ holds l r
  | Join _ :: r => holds l r
  end.

Inductive lock_step : list thread -> list thread -> Prop :=
| lock_take : forall a b t l p, (forall u, In u (a ++ mkThread t (Take l :: p) :: b) -> ~ holds l (th_left u)) ->
    lock_step (a ++ mkThread t (Take l :: p) :: b) (a ++ mkThread t p :: b)
| lock_leave : forall a b t l p, lock_step (a ++ mkThread t (Leave l :: p) :: b) (a ++ mkThread t p :: b)
| lock_join : forall a b t i p,
    (forall u, In u (a ++ mkThread t (Join i :: p) :: b) -> th_task u = Some i -> th_left u = []) ->
    lock_step (a ++ mkThread t (Join i :: p) :: b) (a ++ mkThread t p :: b).
