(** Model of Cache.hpp (38-101): a map guarded by a mutex, used by any number of
    threads.  No proofs in this file.

    Each public call is split into its steps: taking the lock (save, restore),
    accessing the std::unordered_map (a begin and an end point, so that two
    accesses can overlap), releasing the lock.  Two overlapping accesses by
    different threads of which at least one writes are a data race, i.e.
    undefined behaviour: a configuration with such an overlap has no successor.

    Simplifications: std::unordered_map is an association list with an arbitrary
    boolean key equality; exceptions from allocation are not modelled. *)
From Verif Require Import Base.
From Coq Require Import Bool List Arith.
Set Implicit Arguments.

Section Cache.
  Variables (K V : Type) (keqb : K -> K -> bool).

  (** Cache.hpp 61-66, 86-93, 99: the public methods. *)
  Inductive op := Save (k : K) (v : V) | Restore (k : K) | Clear.
  Inductive result := RUnit | RThrow | RVal (v : option V).

  Definition store := list (K * V).
  Fixpoint lookup (m : store) (k : K) : option V :=
    match m with
    | [] => None
    | (k', v) :: m' => if keqb k' k then Some v else lookup m' k
    end.

  (** The access to [cache] made by each method (emplace never overwrites). *)
  Definition perform (m : store) (o : op) : store * result :=
    match o with
    | Save k v => match lookup m k with
                  | Some _ => (m, RThrow)
                  | None => ((k, v) :: m, RUnit)
                  end
    | Restore k => (m, RVal (lookup m k))
    | Clear => ([], RUnit)
    end.

  (** save and restore hold a lock_guard during the access, clear does not (line 99). *)
  Definition locks (o : op) : bool := match o with Clear => false | _ => true end.
  Definition writes (o : op) : bool := match o with Restore _ => false | _ => true end.

  (** Where a thread is: between calls, holding the lock before the access,
      inside the access, or after the access still holding the lock. *)
  Inductive phase := Idle | Locked (o : op) | Access (o : op) | Release.
  Record thread := Th { todo : list op; ph : phase }.

  Record config := Cf {
    threads : list thread;
    lock : option nat;             (* cache_mutex: owner *)
    mem : store;
    log : list (nat * op * result) (* completed accesses, oldest first *)
  }.

  Definition init (progs : list (list op)) : config :=
    Cf (map (fun p => Th p Idle) progs) None [] [].

  Fixpoint upd {A} (l : list A) (i : nat) (x : A) : list A :=
    match l, i with
    | [], _ => []
    | _ :: l', O => x :: l'
    | y :: l', S i' => y :: upd l' i' x
    end.

  (** Data race: overlapping accesses, one of them a write. *)
  Definition race (c : config) : Prop :=
    exists i j ti tj oi oj, i <> j /\
      nth_error (threads c) i = Some ti /\ nth_error (threads c) j = Some tj /\
      ph ti = Access oi /\ ph tj = Access oj /\ (writes oi || writes oj) = true.

  Inductive step (c : config) : config -> Prop :=
  | st_lock : forall i o os, ~ race c ->
      nth_error (threads c) i = Some (Th (o :: os) Idle) -> locks o = true -> lock c = None ->
      step c (Cf (upd (threads c) i (Th os (Locked o))) (Some i) (mem c) (log c))
  | st_access : forall i o os, ~ race c ->
      nth_error (threads c) i = Some (Th os (Locked o)) ->
      step c (Cf (upd (threads c) i (Th os (Access o))) (lock c) (mem c) (log c))
  | st_access_nolock : forall i o os, ~ race c ->
      nth_error (threads c) i = Some (Th (o :: os) Idle) -> locks o = false ->
      step c (Cf (upd (threads c) i (Th os (Access o))) (lock c) (mem c) (log c))
  | st_done : forall i o os, ~ race c ->
      nth_error (threads c) i = Some (Th os (Access o)) ->
      step c (Cf (upd (threads c) i (Th os (if locks o then Release else Idle))) (lock c)
                 (fst (perform (mem c) o)) (log c ++ [(i, o, snd (perform (mem c) o))]))
  | st_unlock : forall i os, ~ race c ->
      nth_error (threads c) i = Some (Th os Release) ->
      step c (Cf (upd (threads c) i (Th os Idle)) None (mem c) (log c)).

  Inductive reach (c0 : config) : config -> Prop :=
  | r_refl : reach c0 c0
  | r_step : forall c c', reach c0 c -> step c c' -> reach c0 c'.
End Cache.
Arguments Clear {K V}.
Arguments Restore {K V} k.
Arguments RUnit {V}.
Arguments RThrow {V}.
Arguments Idle {K V}.
Arguments Release {K V}.
