(** Model of Configuration (ConfParser.hpp:35-263, ConfParser.cpp).  No proofs.

    Strings are byte strings; std::map<std::string, value> is a list of pairs in increasing order of the keys
    (std::string::operator<, i.e. lexicographic order of the bytes). *)
From Verif Require Import Base.
From Coq Require Import ZArith NArith Lia Bool String Ascii List.
Import ListNotations.
Set Implicit Arguments.
Local Open Scope string_scope.
Local Open Scope list_scope.

Definition conf := list (string * string).

(** std::map::find; count, find (hpp 157, 244, 250); const operator[] is params.at(key) (hpp 199) *)
Fixpoint get (c : conf) (k : string) : option string :=
  match c with [] => None | (k', v) :: c => if String.eqb k k' then Some v else get c k end.
Definition at_const (c : conf) (k : string) : res string := match get c k with Some v => Ok v | None => Throw end.
Definition count (c : conf) (k : string) : nat := match get c k with Some _ => 1 | None => 0 end.

(** std::map insertion or assignment at the sorted position: params[key] = v (hpp 189) *)
Fixpoint put (c : conf) (k v : string) : conf :=
  match c with
  | [] => [(k, v)]
  | (k', v') :: c' =>
      match String.compare k k' with
      | Eq => (k, v) :: c'
      | Lt => (k, v) :: c
      | Gt => (k', v') :: put c' k v
      end
  end.
(** operator[] (hpp 189): inserts an empty value if the key is missing *)
Definition access (c : conf) (k : string) : conf := match get c k with Some _ => c | None => put c k "" end.
(** conf[key] << string (hpp 59-67) *)
Definition write (c : conf) (k v : string) : conf := put c k v.

(** operator+= (hpp 176-181) *)
Definition append (a b : conf) : conf := fold_left (fun a kv => put a (fst kv) (snd kv)) b a.

(** operator== (hpp 205): std::map::operator==, i.e. same size and pairwise equal elements *)
Fixpoint equal (a b : conf) : bool :=
  match a, b with
  | [], [] => true
  | (k, v) :: a, (k', v') :: b => String.eqb k k' && String.eqb v v' && equal a b
  | _, _ => false
  end.

(** boost::property_tree::ptree: data and ordered children. *)
Inductive ptree := Node (data : string) (children : list (string * ptree)).
Definition data (t : ptree) : string := match t with Node d _ => d end.
Definition children (t : ptree) : list (string * ptree) := match t with Node _ c => c end.

(** The fragments of a path: split at '.' (string_path with the default separator) *)
Fixpoint split (s : string) : string * list string :=
  match s with
  | EmptyString => (EmptyString, [])
  | String c s => let '(h, t) := split s in
                  if Ascii.eqb c "."%char then (EmptyString, h :: t) else (String c h, t)
  end.
(** the empty string is the empty path *)
Definition fragments (s : string) : list string := match s with EmptyString => [] | _ => let '(h, t) := split s in h :: t end.

(** ptree::put: walks along the path, creating children at the end of the list, and sets the data (ConfParser.cpp:44) *)
Fixpoint put_path (path : list string) (v : string) (t : ptree) : ptree :=
  match path with
  | [] => Node v (children t)
  | f :: path =>
      Node (data t)
        ((fix go (l : list (string * ptree)) : list (string * ptree) :=
            match l with
            | [] => [(f, put_path path v (Node "" []))]
            | (k, x) :: l => if String.eqb k f then (k, put_path path v x) :: l else (k, x) :: go l
            end) (children t))
  end.

(** ConfParser.cpp:38-45 *)
Definition to_tree (c : conf) : ptree := fold_left (fun t kv => put_path (fragments (fst kv)) (snd kv) t) c (Node "" []).

(** boost's verify_json: only leaves have data, the root has none; otherwise write_json throws *)
Fixpoint verify (t : ptree) : bool :=
  match t with
  | Node d l => (match l with [] => true | _ => String.eqb d "" end) &&
                (fix go (l : list (string * ptree)) := match l with [] => true | (_, x) :: l => verify x && go l end) l
  end.
Definition writable (t : ptree) : bool := String.eqb (data t) "" && verify t.

(** save_to_json (ConfParser.cpp:36-48).  The text of the file stands for the tree that is written: that boost's read_json
    gives back the tree that its write_json wrote is assumed. *)
Definition save_to_json (c : conf) : res ptree := let t := to_tree c in if writable t then Ok t else Throw.
(** load_from_json (ConfParser.cpp:25-34): params[key] << data for the children of the root *)
Definition load_from_json (t : ptree) (c : conf) : conf :=
  fold_left (fun c kv => write c (fst kv) (data (snd kv))) (children t) c.

(** Configurations are built from the empty one by the operations above. *)
Inductive conf_op := Access (k : string) | Write (k v : string) | Append (b : list conf_op) | LoadJson (t : ptree).
Fixpoint conf_exec (c : conf) (o : conf_op) : conf :=
  match o with
  | Access k => access c k
  | Write k v => write c k v
  | Append b => append c (fold_left conf_exec b [])
  | LoadJson t => load_from_json t c
  end.
Definition make (os : list conf_op) : conf := fold_left conf_exec os [].
