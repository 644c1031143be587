(** msg-common/src/task.rs: JoinMap, a set of background tasks with keys. *)
From Verif Require Import Model.Base Model.Map.

(** task.rs 12-16.  A running (or finished but not yet joined) task of `joinset` is represented by the key it returns. *)
Record joinmap (K : Type) := mkJm { jm_keys : list K; jm_tasks : list K }.
Arguments mkJm {K}. Arguments jm_keys {K}. Arguments jm_tasks {K}.

(** task.rs 19-22 *)
Definition jm_new {K} : joinmap K := mkJm [] [].

Section JoinMap.
Context {K : Type} {E : EqDec K}.

(** task.rs 43-51 spawn.  The second component tells whether the task was started.  The future is assumed to return the key it was
    spawned with (as those of sub/driver.rs 232-289 do). *)
Definition jm_spawn (k : K) (m : joinmap K) : joinmap K * bool :=
  if smem k (jm_keys m) then (m, false) else (mkJm (sins k (jm_keys m)) (jm_tasks m ++ [k]), true).

(** task.rs 54-56 *)
Definition jm_contains (k : K) (m : joinmap K) : bool := smem k (jm_keys m).

(** What poll_join_next returns: Ready(Some(Ok(key))), Ready(Some(Err)), or Pending / Ready(None). *)
Inductive joined := JOk (k : K) | JPanicked | JNone.

(** task.rs 91-102 poll_join_next: the [i]-th task has finished, by panicking or not. *)
Definition jm_join (i : nat) (panicked : bool) (m : joinmap K) : joinmap K * joined :=
  match nth_error (jm_tasks m) i with
  | None => (m, JNone)
  | Some k =>
    let tasks := firstn i (jm_tasks m) ++ skipn (S i) (jm_tasks m) in
    if panicked then (mkJm (jm_keys m) tasks, JPanicked)
    else (mkJm (sdel k (jm_keys m)) tasks, JOk k)
  end.

(** Histories. *)
Inductive jm_op := JSpawn (k : K) | JFinish (i : nat) (panicked : bool).
Definition jm_act (m : joinmap K) (o : jm_op) : joinmap K :=
  match o with JSpawn k => fst (jm_spawn k m) | JFinish i p => fst (jm_join i p m) end.
Definition jm_run (m : joinmap K) (l : list jm_op) : joinmap K := fold_left jm_act l m.
End JoinMap.
