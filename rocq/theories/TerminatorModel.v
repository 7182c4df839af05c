(** Model of the terminator: libvast/src/system/terminator.cpp and
    libvast/vast/system/terminator.hpp, with the part of CAF that it relies on: monitors and the
    messages they cause.

    Actors may end at any time, because they were told to or for reasons of their own. Messages of
    different senders are handled in any order. *)
From Coq Require Import List Bool Arith.
Import ListNotations.
Open Scope nat_scope.

Definition actor := nat.
(** [policy::sequential] or [policy::parallel] (terminator.hpp:18-23). *)
Inductive policy := Sequential | Parallel.
(** What happens: an actor is told to exit, is killed, has ended; the terminator answers. *)
Inductive event := Exit (a : actor) | Kill (a : actor) | Ended (a : actor) | Done | Failed (n : nat).
(** [terminator_state] (terminator.hpp:27-31) with the state of the actor: whether there is a
    request, whether the terminator has quit, whether the handler for DOWN messages has been
    replaced; the actors it monitors that have not ended, with repetitions; the DOWN messages in the
    mailbox; the reminders that may arrive. *)
Record state := {
  t_requested : bool;
  t_quit : bool;
  t_killing : bool;
  t_remaining : list actor;
  t_monitors : list actor;
  t_downs : list actor;
  t_reminder : bool;
  t_last : bool;
  t_log : list event
}.
Definition init : state :=
  {| t_requested := false; t_quit := false; t_killing := false; t_remaining := []; t_monitors := []; t_downs := []; t_reminder := false; t_last := false; t_log := [] |}.

Definition ended (a : actor) (l : list event) : bool := existsb (fun e => match e with Ended b => b =? a | _ => false end) l.
Definition log (es : list event) (t : state) : state :=
  {| t_requested := t_requested t; t_quit := t_quit t; t_killing := t_killing t; t_remaining := t_remaining t; t_monitors := t_monitors t; t_downs := t_downs t;
     t_reminder := t_reminder t; t_last := t_last t; t_log := t_log t ++ es |}.
Definition set_remaining (xs : list actor) (t : state) : state :=
  {| t_requested := t_requested t; t_quit := t_quit t; t_killing := t_killing t; t_remaining := xs; t_monitors := t_monitors t; t_downs := t_downs t;
     t_reminder := t_reminder t; t_last := t_last t; t_log := t_log t |}.
(** [monitor]: for an actor that has ended the DOWN message is sent at once. *)
Definition monitor (a : actor) (t : state) : state :=
  {| t_requested := t_requested t; t_quit := t_quit t; t_killing := t_killing t; t_remaining := t_remaining t;
     t_monitors := if ended a (t_log t) then t_monitors t else a :: t_monitors t; t_downs := if ended a (t_log t) then a :: t_downs t else t_downs t;
     t_reminder := t_reminder t; t_last := t_last t; t_log := t_log t |}.
(** [monitor] and [send_exit]. *)
Definition tell (kill : bool) (a : actor) (t : state) : state := log [if kill then Kill a else Exit a] (monitor a t).
(** [deliver] and [quit]. *)
Definition finish (e : event) (t : state) : state :=
  {| t_requested := t_requested t; t_quit := true; t_killing := t_killing t; t_remaining := t_remaining t; t_monitors := t_monitors t; t_downs := t_downs t;
     t_reminder := t_reminder t; t_last := t_last t; t_log := t_log t ++ [e] |}.
Definition set_reminder (b : bool) (t : state) : state :=
  {| t_requested := t_requested t; t_quit := t_quit t; t_killing := t_killing t; t_remaining := t_remaining t; t_monitors := t_monitors t; t_downs := t_downs t;
     t_reminder := b; t_last := t_last t; t_log := t_log t |}.

(** [std::find_if] and [erase]. *)
Fixpoint erase (a : actor) (xs : list actor) : option (list actor) :=
  match xs with [] => None | x :: r => if x =? a then Some r else option_map (cons x) (erase a r) end.
(** [remaining.back()]. *)
Definition back (xs : list actor) : option actor := hd_error (rev xs).
Definition tell_next (t : state) : state := match back (t_remaining t) with Some a => tell false a t | None => t end.

(** The handler for a request (terminator.cpp:58-109); a handle without an actor is [None]. Whether
    there is a grace period is a parameter. *)
Definition present (xs : list (option actor)) : list actor := flat_map (fun x => match x with Some a => [a] | None => [] end) xs.
Definition on_request (p : policy) (grace : bool) (xs : list (option actor)) (t : state) : option state :=
  if t_requested t then None
  else
    let t := {| t_requested := true; t_quit := t_quit t; t_killing := t_killing t; t_remaining := rev (present xs); t_monitors := t_monitors t; t_downs := t_downs t;
                t_reminder := t_reminder t; t_last := t_last t; t_log := t_log t |} in
    match t_remaining t with
    | [] => Some (finish Done t)
    | _ =>
        let t := match p with Sequential => tell_next t | Parallel => fold_left (fun t a => tell false a t) (present xs) t end in
        Some (set_reminder grace t)
    end.
(** The two handlers for DOWN messages (terminator.cpp:29-56, 121-135). *)
Definition drop_down (ds : list actor) (t : state) : state :=
  {| t_requested := t_requested t; t_quit := t_quit t; t_killing := t_killing t; t_remaining := t_remaining t; t_monitors := t_monitors t; t_downs := ds;
     t_reminder := t_reminder t; t_last := t_last t; t_log := t_log t |}.
Definition on_down (p : policy) (a : actor) (t : state) : option state :=
  match erase a (t_downs t) with
  | None => None
  | Some ds =>
      let t := drop_down ds t in
      match erase a (t_remaining t) with
      | None => if t_killing t then Some t else None
      | Some [] => Some (finish Done (set_remaining [] t))
      | Some xs => let t := set_remaining xs t in
                   Some (if t_killing t then t else match p with Sequential => tell_next t | Parallel => t end)
      end
  end.
(** The handler for the reminder (terminator.cpp:110-141). In parallel mode the actors are already
    monitored. *)
Definition start_killing (t : state) : state :=
  {| t_requested := t_requested t; t_quit := t_quit t; t_killing := true; t_remaining := t_remaining t; t_monitors := t_monitors t; t_downs := t_downs t;
     t_reminder := false; t_last := true; t_log := t_log t |}.
Definition on_reminder (p : policy) (t : state) : option state :=
  match t_remaining t with
  | [] => None
  | xs => Some (start_killing (fold_left (fun t a => match p with Sequential => tell true a t | Parallel => log [Kill a] t end) xs t))
  end.
(** The handler for the last reminder (terminator.cpp:142-148). *)
Definition on_last (t : state) : state := finish (Failed (length (t_remaining t))) t.
(** An actor ends: a DOWN message for each monitor. *)
Definition on_end (a : actor) (t : state) : state :=
  {| t_requested := t_requested t; t_quit := t_quit t; t_killing := t_killing t; t_remaining := t_remaining t;
     t_monitors := filter (fun b => negb (b =? a)) (t_monitors t); t_downs := filter (fun b => b =? a) (t_monitors t) ++ t_downs t;
     t_reminder := t_reminder t; t_last := t_last t; t_log := t_log t ++ [Ended a] |}.

Inductive input := IRequest (xs : list (option actor)) | IDown (a : actor) | IReminder | ILast | IEnd (a : actor).
Definition step (p : policy) (grace : bool) (i : input) (t : state) : option state :=
  match i with
  | IRequest xs => on_request p grace xs t
  | IDown a => on_down p a t
  | IReminder => on_reminder p t
  | ILast => Some (on_last t)
  | IEnd a => Some (on_end a t)
  end.
(** A terminator that has quit handles nothing. It gets one request, since every call of [terminate]
    (terminate.hpp:58-61) spawns another one. A DOWN message or a reminder is handled if there is
    one. Actors end once. *)
Definition enabled (i : input) (t : state) : Prop :=
  match i with
  | IEnd a => ended a (t_log t) = false
  | _ => t_quit t = false /\ match i with IRequest _ => t_requested t = false | IDown a => In a (t_downs t) | IReminder => t_reminder t = true | ILast => t_last t = true | IEnd _ => True end
  end.
(** States that are reached with a request for the actors [xs]. *)
Inductive reach (p : policy) (grace : bool) (xs : list (option actor)) : state -> Prop :=
| reach_init : reach p grace xs init
| reach_step : forall t i t', reach p grace xs t -> enabled i t -> (forall ys, i = IRequest ys -> ys = xs) -> step p grace i t = Some t' -> reach p grace xs t'.
