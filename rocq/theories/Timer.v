(** * Model of [mbqc_scheduling/src/timer.rs]

    A timer, its background threads and the clock.  An execution is a list of
    events; each event is one atomic action of the user of the timer, of a
    background thread or of the clock.  The mutex is the one of [Timer::pair]; a
    thread holds it between finding that the time is over and its end.  The
    accesses of the atomic flag are sequentially consistent here (timer.rs:74 and
    83 use [Relaxed]; there is only this one location).  Not modelled: poisoned
    locks (they need a panic while the lock is held). *)
From Verif Require Export Base.

(** A background thread, timer.rs:64-76; durations and clock in ticks. *)
Inductive TimerThread :=
| TSpawned (d : nat)     (* has not got the lock yet *)
| TWaiting (c d : nat)   (* waits on the condition variable since [c] for [d] *)
| TExpired               (* has been told that it timed out, holds the lock *)
| TDone.

(** Where the owner of the timer is: it can use the timer; it is in [drop], has
    set the flag and waits for the thread, timer.rs:96-100; [drop] has returned. *)
Inductive TimerPhase := Alive | Joining | Gone.

Record Timer := mkTimer {
  tm_phase : TimerPhase;
  tm_dropping : bool;               (* content of the mutex *)
  tm_finished : bool;               (* the atomic flag *)
  tm_threads : list TimerThread;    (* in the order of the calls of [start] *)
  tm_now : nat                      (* the clock *)
}.

(** [Timer::new], timer.rs:51-57; [now] is the clock. *)
Definition timer_new (now : nat) : Timer := mkTimer Alive false false [] now.

(** One round of the loop of [Condvar::wait_timeout_while] (standard library), as
    called in timer.rs:66-72: first the condition, then
    [duration.checked_sub(start.elapsed())], then waiting. *)
Definition timer_check (dropping : bool) (now c d : nat) : TimerThread :=
  if dropping then TDone else if d <? now - c then TExpired else TWaiting c d.

(** What a thread does when it runs, timer.rs:64-76: take the lock and look at the
    clock; be woken up (by [notify_all], by the timeout or spuriously); store the
    flag and give the lock back.  Second component: whether it sets the flag. *)
Definition thread_step (dropping : bool) (now : nat) (t : TimerThread)
    : option (TimerThread * bool) :=
  match t with
  | TSpawned d => Some (timer_check dropping now now d, false)
  | TWaiting c d => Some (timer_check dropping now c d, false)
  | TExpired => Some (TDone, true)
  | TDone => None
  end.

Definition is_expired (t : TimerThread) : bool :=
  match t with TExpired => true | _ => false end.

(** The mutex is held by a thread other than number [i]. *)
Definition held_by_other (i : nat) (ts : list TimerThread) : bool :=
  existsb is_expired (take i ts) || existsb is_expired (drop (S i) ts).

Inductive timer_event :=
| UStart (d : nat)   (* [start(d)], timer.rs:60-77 *)
| UDrop              (* [drop] up to the notification, timer.rs:94-97 *)
| UJoin              (* the rest of [drop], timer.rs:98-100 *)
| TStep (i : nat)    (* thread [i] runs *)
| Tick.              (* time passes *)

(** One event; [None] if it is not possible (the lock is held by a thread, the
    thread is over, the timer does not exist any more).  [drop] joins only the
    thread of the last [start], the earlier handles have been overwritten. *)
Definition timer_exec (t : Timer) (e : timer_event) : option Timer :=
  match e with
  | UStart d =>
      match tm_phase t with
      | Alive => Some (mkTimer Alive (tm_dropping t) (tm_finished t)
                         (tm_threads t ++ [TSpawned d]) (tm_now t))
      | _ => None
      end
  | UDrop =>
      match tm_phase t with
      | Alive => if existsb is_expired (tm_threads t) then None
                 else Some (mkTimer Joining true (tm_finished t) (tm_threads t) (tm_now t))
      | _ => None
      end
  | UJoin =>
      match tm_phase t, last (tm_threads t) with
      | Joining, (None | Some TDone) =>
          Some (mkTimer Gone (tm_dropping t) (tm_finished t) (tm_threads t) (tm_now t))
      | _, _ => None
      end
  | TStep i =>
      match tm_threads t !! i with
      | Some th =>
          if held_by_other i (tm_threads t) then None else
          match thread_step (tm_dropping t) (tm_now t) th with
          | Some (th', set) =>
              Some (mkTimer (tm_phase t) (tm_dropping t) (tm_finished t || set)
                      (<[i := th']> (tm_threads t)) (tm_now t))
          | None => None
          end
      | None => None
      end
  | Tick => Some (mkTimer (tm_phase t) (tm_dropping t) (tm_finished t) (tm_threads t)
                    (S (tm_now t)))
  end.

(** A list of events; [None] if one of them is not possible. *)
Fixpoint timer_run (t : Timer) (es : list timer_event) : option Timer :=
  match es with
  | [] => Some t
  | e :: es => match timer_exec t e with Some t' => timer_run t' es | None => None end
  end.

(** [Timer::finished], timer.rs:82-84. *)
Definition timer_finished (t : Timer) : bool := tm_finished t.

(** ** Vocabulary of the statements in [Properties_Timer.v] *)

(** The number of ticks in a list of events. *)
Definition is_tick (e : timer_event) : bool := match e with Tick => true | _ => false end.
Definition ticks (es : list timer_event) : nat := length (filter (λ e, is_tick e = true) es).

(** The number of calls of [start]. *)
Definition is_start (e : timer_event) : bool := match e with UStart _ => true | _ => false end.
Definition starts (es : list timer_event) : nat := length (filter (λ e, is_start e = true) es).

(** The number of times thread [i] runs. *)
Definition is_run (i : nat) (e : timer_event) : bool :=
  match e with TStep k => k =? i | _ => false end.
Definition runs (i : nat) (es : list timer_event) : nat := length (filter (λ e, is_run i e = true) es).
