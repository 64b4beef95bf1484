(** Models of I/generic/NodeManager.hpp (open lists), the mark bits of
    I/generic/Common.hpp:64-79 and I/generic/Intermission.hpp. *)
From Verif Require Import Base.

(** ** Marks.  [marked] is a [char] (8 bit, signed). *)
Definition to_char (z : Z) : Z := (z + 128) mod 256 - 128.
(** Common.hpp:64-68. *)
Definition MARK_OPEN := 1. Definition MARK_CLOSED := 2.
Definition MARK_WATCHED := 4. Definition MARK_EXPANDED := 8.
(** Common.hpp:70-72: [marked |= mark]: promoted to int, converted back. *)
Definition mark (marked m : Z) : Z := to_char (Z.lor marked m).
(** Common.hpp:73-75: [marked &= ~mark]. *)
Definition unMark (marked m : Z) : Z := to_char (Z.land marked (Z.lnot m)).
(** Common.hpp:77-79. *)
Definition isMarked (marked m : Z) : bool := Z.land marked m =? m.

(** Calls on a node. *)
Inductive mark_op := Mark (m : Z) | UnMark (m : Z).
Definition mark_step (marked : Z) (o : mark_op) : Z :=
  match o with Mark m => mark marked m | UnMark m => unMark marked m end.
(** Common.hpp:92: init sets MARK_NONE = 0. *)
Definition mark_run (h : list mark_op) : Z := fold_left mark_step h 0.

(** ** Open lists *)
Section Managers.
  Context {N : Type}.
  Inductive mgr_op := Add (n : N) | Next | Clear.

  (** NodeManager.hpp:26-66: QueueManager over std::deque; front first.
      [None]: assert(!queue.empty()). *)
  Definition q_step (l : list N) (o : mgr_op) : option (list N * option N) :=
    match o with
    | Add n => Some (l ++ [n], None)
    | Next => match l with [] => None | n :: r => Some (r, Some n) end
    | Clear => Some ([], None)
    end.
  (** NodeManager.hpp:37-38: remove does nothing. *)
  Definition q_remove (l : list N) (n : N) : list N := l.
  Definition q_size (l : list N) : nat := length l.
  Definition q_empty (l : list N) : bool := match l with [] => true | _ => false end.

  (** NodeManager.hpp:131-134 with 71-115: StackManager, GenericManager over
      std::stack (push, top, pop of the standard library); top first.  clear
      (83-88) pops until empty. *)
  Fixpoint clear_loop (fuel : nat) (l : list N) : option (list N) :=
    match l with
    | [] => Some []
    | _ :: r => match fuel with O => None | S k => clear_loop k r end
    end.
  Definition st_step (l : list N) (o : mgr_op) : option (list N * option N) :=
    match o with
    | Add n => Some (n :: l, None)
    | Next => match l with [] => None | n :: r => Some (r, Some n) end
    | Clear => r <- clear_loop (length l) l ;; Some (r, None)
    end.

  (** NodeManager.hpp:121-125: PriorityQueueManager, GenericManager over
      DynamicPrioritySet<Node*, CompareNode>.  The container is not part of the
      repository; its contract is that of std::priority_queue: top() is an
      element that compares less than no other; push inserts, pop removes top.
      Costs are those at the time of the call. *)
  Section Prio.
    Context {C : Type}.
    Variable lt : C -> C -> bool.
    (** Common.hpp:172-177: CompareNode: lhs->getTotalCost() > rhs->getTotalCost(). *)
    Definition compareNode (cost : N -> C) (a b : N) : bool := lt (cost b) (cost a).
    Definition top_ok (top : (N -> C) -> list N -> option N) : Prop := forall cost l,
      match top cost l with
      | None => l = []
      | Some t => In t l /\ forall x, In x l -> compareNode cost t x = false
      end.
  End Prio.

  (** Run of a manager: the outputs of the [Next] calls in order. *)
  Fixpoint m_run (step : list N -> mgr_op -> option (list N * option N)) (h : list mgr_op) (l : list N) : option (list N * list N) :=
    match h with
    | [] => Some (l, [])
    | o :: r =>
        match step l o with
        | None => None
        | Some (l', out) =>
            match m_run step r l' with
            | None => None
            | Some (l'', outs) => Some (l'', match out with Some n => n :: outs | None => outs end)
            end
        end
    end.
End Managers.
Arguments mgr_op : clear implicits.

(** ** Intermission.hpp:14-41, CallbackIntermission<steps, start_step>::call with
    its two function-local statics; the result says whether c() was called.
    (callAndCopy is the same with a copy before the call.) *)
Record imst := IM { im_next : Z; im_start : bool }.
Definition im_init (start_step : Z) : imst := IM start_step true.
Definition im_call (steps : Z) (s : imst) : imst * bool :=
  let next := im_next s - 1 in
  if (next <=? 0) || im_start s then
    if next >? 0 then (IM next (im_start s), true)
    else (IM steps false, true)
  else (IM next (im_start s), false).
(** n successive calls: which of them invoked the callback. *)
Fixpoint im_run (steps : Z) (n : nat) (s : imst) : imst * list bool :=
  match n with
  | O => (s, [])
  | S k => let '(s1, b) := im_call steps s in let '(s2, l) := im_run steps k s1 in (s2, b :: l)
  end.
(** Intermission.hpp:42-48: the specialisation for steps = 0 never calls. *)
Definition im0_call (s : imst) : imst * bool := (s, false).
