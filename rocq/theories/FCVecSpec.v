(** What a fixed-capacity vector is: a list of at most [cap] elements.  Written without reference to the code. *)
From Verif Require Export FCVecModel.

Section ListSpec.
Context {T : Type} (cap : nat).

(** The list operation of each call: what is handed out and the new list; [Panic] exactly on the documented
    conditions. *)
Definition list_step (l : list T) (o : vop T) : res (list T * list T) :=
  match o with
  | VPush x => if length l =? cap then Panic else Ok ([], l ++ [x])
  | VTryPush x => if length l =? cap then Ok ([x], l) else Ok ([], l ++ [x])
  | VInsert i x =>
    if (length l <? i) || (length l =? cap) then Panic else Ok ([], firstn i l ++ x :: skipn i l)
  | VRemove i =>
    match nth_error l i with None => Panic | Some x => Ok ([x], firstn i l ++ skipn (S i) l) end
  | VSwapRemove i =>
    match nth_error l i with
    | None => Panic
    | Some x =>
      if i =? length l - 1 then Ok ([x], firstn i l)
      else Ok ([x], firstn i l ++ last l x :: firstn (length l - 2 - i) (skipn (S i) l))
    end
  | VSwap i j =>
    match nth_error l i, nth_error l j with
    | Some x, Some y => Ok ([], set_nth j x (set_nth i y l))
    | _, _ => Panic
    end
  | VPop => match rev l with [] => Ok ([], l) | x :: r => Ok ([x], rev r) end
  | VRead => Ok (l, l)
  end.
Fixpoint list_run (l : list T) (os : list (vop T)) : res (list (list T) * list T) :=
  match os with
  | [] => Ok ([], l)
  | o :: os => let* (x, l) := list_step l o in let* (xs, l) := list_run l os in Ok (x :: xs, l)
  end.

(** Taking elements from both ends of a list: what comes out and what is left. *)
Fixpoint deque_run (l : list T) (ds : list bool) : list (option T) * list T :=
  match ds with
  | [] => ([], l)
  | true :: ds => let (os, r) := deque_run (tl l) ds in (hd_error l :: os, r)
  | false :: ds => let (os, r) := deque_run (rev (tl (rev l))) ds in (hd_error (rev l) :: os, r)
  end.
End ListSpec.
