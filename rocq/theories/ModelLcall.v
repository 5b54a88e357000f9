(** Model of lcall, /repo/src/lionherd_core/ln/_list_call.py, and of the input
    conversion of alcall, /repo/src/lionherd_core/ln/_async_call.py:105-139.

    Values and to_list are those of [ModelList].  The function is any function of
    the items it was called with before and of the item; extra arguments are part of
    it.  Simplified: it does not change the list that is iterated; a str subclass
    that is an Enum is not iterable. *)
From Coq Require Import List Bool Arith ZArith.
From Verif Require Import PyBase ModelList.
Import ListNotations.
Local Open Scope list_scope.

(** How a call ends. *)
Inductive ending :=
| Value (v : val)
| Interrupted                              (* InterruptedError *)
| Error (e : exn).
Definition func := list val -> val -> ending.

(** The second argument. *)
Inductive funcs :=
| FOne (f : func)                          (* callable *)
| FMany (l : list (option func))           (* not callable, iterable; None: an item that is not callable *)
| FBad.                                    (* neither *)

(** 56-65 *)
Definition pick (g : funcs) : outcome func :=
  match g with
  | FOne f => Ret f
  | FMany [Some f] => Ret f
  | FMany _ | FBad => Raise ValueError
  end.

Section Lcall.
Variable hash : val -> option Z.
Variable eqv : val -> val -> bool.
Variable hdict : val -> Z.
(** The (name, value) pairs that iterating over a pydantic model gives. *)
Variable model_items : Z -> list val.

(** list(v); None: TypeError. *)
Definition py_list (v : val) : option (list val) :=
  match v with
  | VSeq _ l => Some l
  | VText s => Some (map (fun c => VText [c]) s)
  | VMap kv => Some (map fst kv)
  | VModel m => Some (model_items m)
  | VEnumClass l => Some (members l)
  | VNone | VUndef | VAtom _ | VEnum _ _ => None
  end.

Record opts := {
  i_flatten : bool; i_dropna : bool; i_unique : bool; i_values : bool; i_tuples : bool;
  o_flatten : bool; o_dropna : bool; o_unique : bool; o_tuples : bool }.

(** 71-87 *)
Definition lcall_input (o : opts) (v : val) : outcome (list val) :=
  if i_flatten o || i_dropna o
  then to_list hash eqv hdict v (i_flatten o) (i_dropna o) (i_unique o) (i_values o) (i_tuples o)
  else match py_list v with Some l => Ret l | None => Ret [v] end.

(** 89-99: the items called with, in order, the results, and how the loop ended. *)
Fixpoint loop (f : func) (items called out : list val) : list val * outcome (bool * list val) :=
  match items with
  | [] => (called, Ret (true, out))
  | x :: items =>
      match f called x with
      | Value r => loop f items (called ++ [x]) (out ++ [r])
      | Interrupted => (called ++ [x], Ret (false, out))                       (* 96-97 *)
      | Error e => (called ++ [x], Raise e)                                    (* 98-99 *)
      end
  end.

(** 16-110: the items the function was called with, and the outcome. *)
Definition lcall (v : val) (g : funcs) (o : opts) : list val * outcome (list val) :=
  match pick g with
  | Raise e => ([], Raise e)
  | Ret f =>
      if o_unique o && negb (o_flatten o || o_dropna o) then ([], Raise ValueError)  (* 68-69 *)
      else match lcall_input o v with
           | Raise e => ([], Raise e)
           | Ret items =>
               match loop f items [] [] with
               | (c, Raise e) => (c, Raise e)
               | (c, Ret (false, out)) => (c, Ret out)
               | (c, Ret (true, out)) =>                                       (* 102-110 *)
                   (c, if o_flatten o || o_dropna o
                       then to_list hash eqv hdict (VSeq KList out) (o_flatten o) (o_dropna o)
                              (o_unique o) false (o_tuples o)
                       else Ret out)
               end
           end
  end.

(** _async_call.py:121-139 *)
Definition alcall_input (o : opts) (v : val) : outcome (list val) :=
  if i_flatten o || i_dropna o
  then to_list hash eqv hdict v (i_flatten o) (i_dropna o) (i_unique o) false (i_tuples o)
  else match v with
       | VModel _ => Ret [v]
       | _ => match py_list v with Some l => Ret l | None => Ret [v] end
       end.
End Lcall.
