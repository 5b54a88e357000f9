(** What users expect of the publish/subscribe classes, as functions of the
    history of calls alone. *)
From Coq Require Import List Bool Arith.
From Verif Require Import PyBase ModelHeap ModelPubSub.
Import ListNotations.

Definition cb_of (cb : callee) : wref :=
  match cb with Plain o => RObj o | Bound o m => RMeth o m | Builtin o => RObj o end.

(** Subscriptions in order: (channel, callback).  A channel is a class together
    with all classes that share its subscriber list. *)
Definition board := list (nat * wref).

Definition on_channel (ch : nat) (b : board) : list wref :=
  map snd (filter (fun p => fst p =? ch) b).

Definition drop_pair (ch : nat) (r : wref) (b : board) : board :=
  filter (fun p => negb ((fst p =? ch) && wref_eqb (snd p) r)) b.

Section Board.
Variable owner : nat -> nat.

Definition board_step (b : board) (a : bop) : board :=
  match a with
  | BSubscribe c (Plain o) =>
      if existsb (wref_eqb (RObj o)) (on_channel (owner c) b) then b else b ++ [(owner c, RObj o)]
  | BSubscribe c (Bound o m) => b ++ [(owner c, RMeth o m)]
  | BSubscribe _ (Builtin _) => b
  | BUnsubscribe c (Plain o) => drop_pair (owner c) (RObj o) b
  | BUnsubscribe _ _ => b
  | BCollect o => filter (fun p => negb (referent (snd p) =? o)) b
  | _ => b
  end.

(** The subscriptions a history leaves. *)
Definition board_of (ops : list bop) : board := fold_left board_step ops [].

(** No operation of the history was impossible (an operation on a reclaimed
    object, a collection of an object in use, a step of a finished broadcast). *)
Fixpoint possible (same : nat -> nat -> bool) (s : bstate) (ops : list bop) : Prop :=
  match ops with
  | [] => True
  | a :: t => snd (bstep owner same s a) <> BImpossible /\ possible same (fst (bstep owner same s a)) t
  end.
End Board.

(** No object is subscribed both itself and through one of its bound methods. *)
Definition separate (ops : list bop) : Prop := forall o m c c',
  In (BSubscribe c (Plain o)) ops -> In (BSubscribe c' (Bound o m)) ops -> False.

(** Number of callbacks broadcast [t] has got to in [ops]: a callback that
    raises an Exception does not stop it, another BaseException does. *)
Fixpoint asked (t : nat) (ops : list bop) : nat :=
  match ops with
  | [] => 0
  | BNext t' r :: rest =>
      if t' =? t then match r with CBase _ => 1 | _ => S (asked t rest) end else asked t rest
  | _ :: rest => asked t rest
  end.

(** The calls made by broadcast [t]. *)
Definition calls (t : nat) (log : list (nat * wref * nat)) : list (wref * nat) :=
  map (fun x => (snd (fst x), snd x)) (filter (fun x => fst (fst x) =? t) log).

(** ** EventBus *)

Definition ebook := list (nat * nat).   (* (topic, handler), in order of subscription *)

Definition on_topic (t : nat) (b : ebook) : list nat := map snd (filter (fun p => fst p =? t) b).

Fixpoint drop_first (t o : nat) (b : ebook) : ebook :=
  match b with
  | [] => []
  | p :: r => if (fst p =? t) && (snd p =? o) then r else p :: drop_first t o r
  end.

Definition ebook_step (b : ebook) (a : eop) : ebook :=
  match a with
  | ESubscribe t o => b ++ [(t, o)]
  | EUnsubscribe t o => drop_first t o b
  | ECollect o => filter (fun p => negb (snd p =? o)) b
  | EClear None => []
  | EClear (Some t) => filter (fun p => negb (fst p =? t)) b
  | _ => b
  end.

Definition ebook_of (ops : list eop) : ebook := fold_left ebook_step ops [].

(** Topics subscribed to since they were last cleared, in order. *)
Definition topics_step (l : list nat) (a : eop) : list nat :=
  match a with
  | ESubscribe t _ => if existsb (Nat.eqb t) l then l else l ++ [t]
  | EClear None => []
  | EClear (Some t) => filter (fun u => negb (u =? t)) l
  | _ => l
  end.

Definition topics_of (ops : list eop) : list nat := fold_left topics_step ops [].

Fixpoint e_possible (same : nat -> nat -> bool) (s : ebus) (ops : list eop) : Prop :=
  match ops with
  | [] => True
  | a :: t => snd (estep same s a) <> EImpossible /\ e_possible same (fst (estep same s a)) t
  end.

(** The handlers whose awaitables emission [k] has started. *)
Definition started (k : nat) (log : list (nat * nat)) : list nat :=
  map snd (filter (fun x => fst x =? k) log).
