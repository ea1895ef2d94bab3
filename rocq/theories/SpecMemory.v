(** What a user expects of variables that hold interval arrays: every object has
    a value of its own; [v = w] and [asinterval(w)] give another name to the same
    object, everything else makes a new object; assignment to items, in-place
    operators and [del] change the value of one object, under all its names. *)
From Coq Require Import ZArith List Bool Arith.
From Verif Require Import Base PyNum Kernel Expr Arrays Construct SpecArray Slices Memory.
Import ListNotations.

(** A world of objects with values, without buffers. *)
Inductive thing : Type := TObj (o : nat) | TElt (e : itv).
Record world : Type := mkworld { things : list aitv; names : nat -> option thing }.
Definition no_world : world := mkworld [] (fun _ => None).
Definition name (w : world) (v : nat) (x : thing) : world := mkworld (things w) (fun u => if u =? v then Some x else names w u).
Definition thing_at (w : world) (o : nat) : aitv := nth o (things w) (mkaitv (mkarr [] []) []).
Definition add (w : world) (v : nat) (x : aitv) : world := name (mkworld (things w ++ [x]) (names w)) v (TObj (length (things w))).
Definition change (w : world) (o : nat) (x : aitv) : world := mkworld (set_nth o x (things w)) (names w).
Definition find (w : world) (v : nat) : res nat := match names w v with Some (TObj o) => Ok o | Some _ => Err TypeError | None => Err NameError end.
Definition w_operand (w : world) (y : rhs) : res (arr operand + itv) :=
  match y with
  | RC c => Ok (inl c)
  | RV u => match names w u with Some (TObj o) => Ok (inl (op_arr (thing_at w o))) | Some (TElt e) => Ok (inr e) | None => Err NameError end
  end.
Definition w_setval (w : world) (y : sval) : res setval :=
  match y with
  | SC c => Ok c
  | SV u => match names w u with Some (TObj o) => Ok (VArr (adat (thing_at w o))) | Some (TElt e) => Ok (VItv e) | None => Err NameError end
  end.
Definition w_exec (rm : rmode) (w : world) (c : cmd) : res world :=
  match c with
  | New v a => Ok (add w v (array_interval a))
  | Assign v u | AsInterval v u => match names w u with Some x => Ok (name w v x) | None => Err NameError end
  | Call v f u => o <~ find w u ;; r <~ call f (thing_at w o) ;; Ok match r with RItv e => name w v (TElt e) | RArr z => add w v z end
  | Bin v p u y => o <~ find w u ;; c <~ w_operand w y ;; z <~ binary rm p (thing_at w o) c ;; Ok (add w v z)
  | SetItem u key y => o <~ find w u ;; c <~ w_setval w y ;; z <~ setkey (thing_at w o) key c ;; Ok (change w o z)
  | InPlace p u y => o <~ find w u ;; c <~ w_operand w y ;; z <~ in_place rm p (thing_at w o) c ;; Ok (change w o z)
  | DelItem u key => o <~ find w u ;; z <~ delitem (thing_at w o) key ;; Ok (change w o z)
  | Data _ _ | Piece _ _ _ | Put _ _ _ => Err NotImplementedError
  end.
Definition w_step (rm : rmode) (w : world) (c : cmd) : world := match w_exec rm w c with Ok w' => w' | Err _ => w end.
Definition w_run (rm : rmode) (p : list cmd) : world := fold_left (w_step rm) p no_world.
(** The exceptions of a program's commands, in order. *)
Definition raised {S} (x : res S) : option exn := match x with Ok _ => None | Err e => Some e end.
Fixpoint outcomes (rm : rmode) (m : mem) (p : list cmd) : list (option exn) :=
  match p with [] => [] | c :: p' => raised (exec rm m c) :: outcomes rm (step rm m c) p' end.
Fixpoint w_outcomes (rm : rmode) (w : world) (p : list cmd) : list (option exn) :=
  match p with [] => [] | c :: p' => raised (w_exec rm w c) :: w_outcomes rm (w_step rm w c) p' end.

(** No numpy array that shares an object's buffer is taken. *)
Definition pure_cmd (c : cmd) : Prop := match c with Data _ _ | Piece _ _ _ | Put _ _ _ => False | _ => True end.
(** What a variable shows. *)
Inductive shown : Type := Array (x : aitv) | One_interval (e : itv).
Definition show (m : mem) (v : nat) : option shown :=
  match vars m v with
  | Some (Obj o) => Some (Array (object m o))
  | Some (Elt e) => Some (One_interval e)
  | _ => None
  end.
Definition w_show (w : world) (v : nat) : option shown :=
  match names w v with
  | Some (TObj o) => Some (Array (thing_at w o))
  | Some (TElt e) => Some (One_interval e)
  | None => None
  end.
(** [v is u] for variables that hold arrays. *)
Definition is_same (m : mem) (v u : nat) : Prop := exists o, vars m v = Some (Obj o) /\ vars m u = Some (Obj o).
Definition w_is_same (w : world) (v u : nat) : Prop := exists o, names w v = Some (TObj o) /\ names w u = Some (TObj o).

(** The command works on the array that variable [w] holds. *)
Definition through (c : cmd) (w : nat) : Prop :=
  match c with SetItem u _ _ | InPlace _ u _ | DelItem u _ => u = w | _ => False end.
(** The command replaces the buffer of the array that [w] holds. *)
Definition replaces (c : cmd) (w : nat) : Prop :=
  match c with InPlace _ u _ | DelItem u _ => u = w | _ => False end.
(** The variable the command assigns to. *)
Definition target (c : cmd) : option nat :=
  match c with New v _ | Assign v _ | AsInterval v _ | Call v _ _ | Bin v _ _ _ | Data v _ | Piece v _ _ => Some v | _ => None end.
(** Arrays given in the program have as many elements as their shape says. *)
Definition given_ok (c : cmd) : Prop := match c with New _ a => awf a | _ => True end.
(** While [p] runs from [m], no in-place operator and no [del] is applied to the
    object [o], under any name. *)
Fixpoint not_replaced (rm : rmode) (m : mem) (p : list cmd) (o : nat) : Prop :=
  match p with
  | [] => True
  | c :: p' => (forall w, replaces c w -> vars m w <> Some (Obj o)) /\ not_replaced rm (step rm m c) p' o
  end.
