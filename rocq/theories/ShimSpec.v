(** What the registry and the directory should hold, from the history of calls
    alone (newest call first), and which query responses have arrived. *)
From Coq Require Import List NArith Bool.
From Verif Require Import ShimModel.
Import ListNotations.
Open Scope N_scope.

(** The last registration call for the name was an addition. *)
Fixpoint registered (hist : list op) (h : hash) : bool :=
  match hist with
  | [] => false
  | RegAdd x :: t => if heqb x h then true else registered t h
  | RegDel x :: t => if heqb x h then false else registered t h
  | _ :: t => registered t h
  end.
(** The last directory call for the name and address was an addition. *)
Fixpoint present (hist : list op) (h : hash) (a : N) : bool :=
  match hist with
  | [] => false
  | DirAdd x b :: t => if heqb x h && (b =? a) then true else present t h a
  | DirDel x b :: t => if heqb x h && (b =? a) then false else present t h a
  | _ :: t => present t h a
  end.
(** The addresses of the name, the most recently added first. *)
Fixpoint addrs (hist : list op) (h : hash) : list N :=
  match hist with
  | [] => []
  | DirAdd x b :: t =>
      if heqb x h && negb (present t h b) then b :: addrs t h else addrs t h
  | DirDel x b :: t =>
      if heqb x h then filter (fun a => negb (a =? b)) (addrs t h) else addrs t h
  | _ :: t => addrs t h
  end.

Definition spec_res (hist : list op) (o : op) : res :=
  match o with
  | RegAdd _ | RegDel _ | DirDel _ _ => ROk
  | RegHas h => RBool (registered hist h)
  | DirAdd h a => if present hist h a then RFail else ROk
  | DirHas h => RBool (match addrs hist h with [] => false | _ => true end)
  | DirGet h => RAddr (hd 0 (addrs hist h))
  end.
Fixpoint spec_run (hist : list op) (ops : list op) : list res :=
  match ops with [] => [] | o :: t => spec_res hist o :: spec_run (o :: hist) t end.

(** ** Queries: the name a query was last created for, and whether a response for
    a name came since the query's wait began, or since its creation. *)
Fixpoint created (hist : list qlabel) (q : N) : option hash :=
  match hist with
  | [] => None
  | LCreate p h :: t => if p =? q then Some h else created t q
  | _ :: t => created t q
  end.
Fixpoint answered (hist : list qlabel) (q : N) (h : hash) : bool :=
  match hist with
  | [] => false
  | LWait p true :: t => if p =? q then false else answered t q h
  | LRespond x :: t => if heqb x h then true else answered t q h
  | _ :: t => answered t q h
  end.
Fixpoint answered_ever (hist : list qlabel) (q : N) (h : hash) : bool :=
  match hist with
  | [] => false
  | LCreate p _ :: t => if p =? q then false else answered_ever t q h
  | LRespond x :: t => if heqb x h then true else answered_ever t q h
  | _ :: t => answered_ever t q h
  end.
