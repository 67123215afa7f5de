(** Model of the registry of the IRM daemon: src/irmd/reg/reg.c, flow.c,
    name.c, proc.c and prog.c.

    Every operation below runs under the registry's mutex, so one operation
    is one step.  The operations that sleep on the registry's condition
    variable are split at the sleep: the part up to the sleep and the part
    after a wake-up are two steps.

    A failed assertion and an access to freed memory are the outcome [Abort].

    Simplifications: failure to allocate a list entry or a string is not
    modelled (failure to create a flow or its buffers is); the fixed sizes of
    the string fields are not modelled; the element counters beside the lists
    are the lengths of the lists; the lists of IPCPs and of spawned children
    are left out. *)

From Coq Require Import List NArith ZArith Bool String Ascii.
From Verif Require Import BitmapModel.
Import ListNotations.
Open Scope Z_scope.

(** flow.h:30-39, enum flow_state. *)
Inductive fstate : Set :=
| FInit | FAllocPending | FAcceptPending | FAllocated
| FDeallocPending | FDeallocated | FDestroy | FNull.

Definition fstate_eqb (a b : fstate) : bool :=
  match a, b with
  | FInit, FInit | FAllocPending, FAllocPending
  | FAcceptPending, FAcceptPending | FAllocated, FAllocated
  | FDeallocPending, FDeallocPending | FDeallocated, FDeallocated
  | FDestroy, FDestroy | FNull, FNull => true
  | _, _ => false
  end.

(** flow.h:41-52, struct flow_info.  Of the QoS specification only the
    strength of the cypher matters here. *)
Record finfo : Type := mk_finfo {
  i_id    : Z;
  i_npid  : N;
  i_n1pid : N;
  i_mpl   : N;
  i_cyph  : N;
  i_state : fstate
}.

Definition set_state (s : fstate) (i : finfo) : finfo :=
  mk_finfo (i_id i) (i_npid i) (i_n1pid i) (i_mpl i) (i_cyph i) s.
Definition set_id (x : Z) (i : finfo) : finfo :=
  mk_finfo x (i_npid i) (i_n1pid i) (i_mpl i) (i_cyph i) (i_state i).
Definition set_npid (p : N) (i : finfo) : finfo :=
  mk_finfo (i_id i) p (i_n1pid i) (i_mpl i) (i_cyph i) (i_state i).
Definition set_n1pid (p : N) (i : finfo) : finfo :=
  mk_finfo (i_id i) (i_npid i) p (i_mpl i) (i_cyph i) (i_state i).
Definition set_mpl (m : N) (i : finfo) : finfo :=
  mk_finfo (i_id i) (i_npid i) (i_n1pid i) m (i_cyph i) (i_state i).
Definition set_cyph (c : N) (i : finfo) : finfo :=
  mk_finfo (i_id i) (i_npid i) (i_n1pid i) (i_mpl i) c (i_state i).

(** A pointer to one of the two shared buffers of a flow. *)
Inductive rbptr : Set := RbNull | RbLive | RbFreed.

(** A buffer_t: [None] is the cleared buffer {NULL, 0}. *)
Notation buffer := (option (list N)).

(** reg/flow.h, struct reg_flow.  [f_tag] is not in the code and nothing in
    the model reads it except to tell whether a pointer still points to the
    flow it was taken for: the number of flows created before this one. *)
Record rflow : Type := mk_rflow {
  f_info : finfo;
  f_data : buffer;
  f_nrb  : rbptr;
  f_n1rb : rbptr;
  f_tag  : N
}.

Definition f_id (f : rflow) : Z := i_id (f_info f).
Definition f_npid (f : rflow) : N := i_npid (f_info f).
Definition f_st (f : rflow) : fstate := i_state (f_info f).

Definition set_info (i : finfo) (f : rflow) : rflow :=
  mk_rflow i (f_data f) (f_nrb f) (f_n1rb f) (f_tag f).
Definition set_data (d : buffer) (f : rflow) : rflow :=
  mk_rflow (f_info f) d (f_nrb f) (f_n1rb f) (f_tag f).
Definition set_rbs (a b : rbptr) (f : rflow) : rflow :=
  mk_rflow (f_info f) (f_data f) a b (f_tag f).

(** name.h, enum pol_balance. *)
Inductive lb : Set := LbRR | LbSpill.

(** reg/name.h, struct reg_name.  The entries of [n_progs] are the argument
    vectors of programs to start, of which [exec[0]] matters here. *)
Record rname : Type := mk_rname {
  n_name   : string;
  n_lb     : lb;
  n_progs  : list string;
  n_procs  : list N;
  n_active : list N
}.

Definition set_progs (l : list string) (n : rname) : rname :=
  mk_rname (n_name n) (n_lb n) l (n_procs n) (n_active n).
Definition set_procs (l : list N) (n : rname) : rname :=
  mk_rname (n_name n) (n_lb n) (n_progs n) l (n_active n).
Definition set_active (l : list N) (n : rname) : rname :=
  mk_rname (n_name n) (n_lb n) (n_progs n) (n_procs n) l.

(** reg/proc.h, struct reg_proc. *)
Record rproc : Type := mk_rproc {
  p_pid : N;
  p_prog : string;
  p_names : list string
}.

(** reg/prog.h, struct reg_prog. *)
Record rprog : Type := mk_rprog {
  g_name : string;
  g_path : string;
  g_names : list string
}.

(** reg.c:44-68, the registry.  [r_next] is not in the code: the number of
    flows created so far. *)
Record reg : Type := mk_reg {
  r_ids   : bmp;
  r_flows : list rflow;
  r_names : list rname;
  r_procs : list rproc;
  r_progs : list rprog;
  r_next  : N
}.

Definition set_flows (l : list rflow) (r : reg) : reg :=
  mk_reg (r_ids r) l (r_names r) (r_procs r) (r_progs r) (r_next r).
Definition set_names (l : list rname) (r : reg) : reg :=
  mk_reg (r_ids r) (r_flows r) l (r_procs r) (r_progs r) (r_next r).
Definition set_rprocs (l : list rproc) (r : reg) : reg :=
  mk_reg (r_ids r) (r_flows r) (r_names r) l (r_progs r) (r_next r).
Definition set_rprogs (l : list rprog) (r : reg) : reg :=
  mk_reg (r_ids r) (r_flows r) (r_names r) (r_procs r) l (r_next r).
Definition set_ids (b : bmp) (r : reg) : reg :=
  mk_reg b (r_flows r) (r_names r) (r_procs r) (r_progs r) (r_next r).

(** SYS_MAX_FLOWS and reg.c:38, ID_OFFT. *)
Definition sys_max_flows : N := 10240.
Definition id_offt : Z := 1.

(** reg.c:556-600, reg_init. *)
Definition reg_init : reg :=
  mk_reg (bmp_create (sys_max_flows - 1) id_offt) [] [] [] [] 0.

(** Error numbers returned by the registry. *)
Definition ENOMEM : Z := 12.
Definition EAGAIN : Z := 11.
Definition EEXIST : Z := 17.
Definition ETIMEDOUT : Z := 110.
Definition ENAME : Z := 1008.

Inductive out (A : Type) : Type :=
| Ok : A -> out A
| Abort : out A.
Arguments Ok {A} _.
Arguments Abort {A}.

(** assert() *)
Definition assert {A} (c : bool) (k : out A) : out A := if c then k else Abort.

(** ** Lists (src/lib/list.c) *)

(** Update and removal of the first entry found by a search. *)
Fixpoint upd_first {A} (p : A -> bool) (f : A -> A) (l : list A) : list A :=
  match l with
  | [] => []
  | x :: t => if p x then f x :: t else x :: upd_first p f t
  end.

Fixpoint del_first {A} (p : A -> bool) (l : list A) : list A :=
  match l with
  | [] => []
  | x :: t => if p x then t else x :: del_first p t
  end.

(** [list_add(x, __reg_after_*(key))]: the helpers __reg_after_flow,
    __reg_after_name, __reg_after_proc and __reg_after_prog (reg.c:108, 216,
    246, 418) return the first entry with a larger key, or the head of the
    list, and list_add (list.c:48) puts the new entry behind it. *)
Fixpoint ins_behind {A} (gt : A -> bool) (x : A) (l : list A) : option (list A) :=
  match l with
  | [] => None
  | y :: t => if gt y then Some (y :: x :: t)
              else option_map (cons y) (ins_behind gt x t)
  end.
Definition list_ins {A} (gt : A -> bool) (x : A) (l : list A) : list A :=
  match ins_behind gt x l with Some l' => l' | None => x :: l end.

(** ** Flows (reg/flow.c) *)

Definition has_id (id : Z) (f : rflow) : bool := f_id f =? id.

(** reg.c:76-90, __reg_get_flow (its assertion is in [get_flow_a]). *)
Definition get_flow (r : reg) (id : Z) : option rflow :=
  find (has_id id) (r_flows r).

(** reg.c:80: the assertion of __reg_get_flow. *)
Definition id_ok (id : Z) : bool := id_offt <=? id.

(** reg.c:92-106, __reg_get_accept_flow. *)
Definition accepting (pid : N) (f : rflow) : bool :=
  fstate_eqb (f_st f) FAcceptPending && (f_npid f =? pid)%N.
Definition get_accept_flow (r : reg) (pid : N) : option rflow :=
  find (accepting pid) (r_flows r).

(** Writing back a flow the registry holds a pointer to. *)
Definition put_flow (f : rflow) (r : reg) : reg :=
  set_flows (upd_first (has_id (f_id f)) (fun _ => f) (r_flows r)) r.

(** flow.c:36-64, reg_flow_create.  [tag] is the history variable. *)
Definition flow_create (i : finfo) (tag : N) : out rflow :=
  assert (0 <? i_id i) (
  assert (negb (i_npid i =? 0)%N) (
  assert (i_n1pid i =? 0)%N (
  assert (i_mpl i =? 0)%N (
  assert (fstate_eqb (i_state i) FInit) (
  Ok (mk_rflow i None RbNull RbNull tag)))))).

(** flow.c:66-75, destroy_rbuffs: destroying a freed buffer is undefined. *)
Definition destroy_rbuffs (f : rflow) : out rflow :=
  match f_nrb f, f_n1rb f with
  | RbFreed, _ | _, RbFreed => Abort
  | _, _ => Ok (set_rbs RbNull RbNull f)
  end.

(** flow.c:77-99, reg_flow_destroy. *)
Definition flow_destroy (f : rflow) : out unit :=
  let f := if fstate_eqb (f_st f) FAcceptPending then set_data None f else f in
  match destroy_rbuffs f with
  | Abort => Abort
  | Ok f => match f_data f with None => Ok tt | Some _ => Abort end
  end.

(** Which of the two calls of shm_rbuff_create fails, if any. *)
Inductive rbres : Set := RbOk | RbFailN | RbFailN1.

(** flow.c:101-124, create_rbuffs.  Note line 120: when the second buffer
    cannot be created the first one is destroyed but [flow->n_rb] is left. *)
Definition create_rbuffs (f : rflow) (i : finfo) (rb : rbres) : out (rflow * bool) :=
  match rb with
  | RbFailN => Ok (set_rbs RbNull (f_n1rb f) f, false)
  | _ =>
      assert (i_n1pid (f_info f) =? 0)%N (
      assert (match f_n1rb f with RbNull => true | _ => false end) (
      let f := set_info (set_n1pid (i_n1pid i) (f_info f)) f in
      match rb with
      | RbFailN1 => Ok (set_rbs RbFreed RbNull f, false)
      | _ => Ok (set_rbs RbLive RbLive f, true)
      end))
  end.

(** flow.c:177-179: [flow->info.state = info->state; *info = flow->info]. *)
Definition upd_done (f : rflow) (s : fstate) : out (rflow * finfo * Z) :=
  let f := set_info (set_state s (f_info f)) f in Ok (f, f_info f, 0).

(** flow.c:126-182, reg_flow_update: the flow, the caller's info and the
    result. *)
Definition flow_update (f : rflow) (i : finfo) (rb : rbres) : out (rflow * finfo * Z) :=
  assert (i_id (f_info f) =? i_id i) (
  match i_state i with
  | FAcceptPending =>
      assert (fstate_eqb (f_st f) FInit) (
      upd_done (set_info (set_npid (i_npid i) (f_info f)) f) FAcceptPending)
  | FAllocPending =>
      assert (fstate_eqb (f_st f) FInit) (
      assert (negb (i_n1pid i =? 0)%N) (
      match create_rbuffs f i rb with
      | Abort => Abort
      | Ok (f, false) => Ok (f, i, - ENOMEM)
      | Ok (f, true) => upd_done f FAllocPending
      end))
  | FAllocated =>
      assert (negb (i_n1pid i =? 0)%N) (
      assert (fstate_eqb (f_st f) FAllocPending || fstate_eqb (f_st f) FAcceptPending) (
      assert (negb (f_npid f =? 0)%N) (
      assert (negb (i_mpl i =? 0)%N) (
      let f := set_info (set_mpl (i_mpl i) (f_info f)) f in
      if fstate_eqb (f_st f) FAllocPending then upd_done f FAllocated
      else
        let f := set_info (set_cyph (i_cyph i) (f_info f)) f in
        match create_rbuffs f i rb with
        | Abort => Abort
        | Ok (f, false) => Ok (f, i, - ENOMEM)
        | Ok (f, true) => upd_done f FAllocated
        end))))
  | FDeallocated =>
      match destroy_rbuffs f with
      | Abort => Abort
      | Ok f => upd_done f FDeallocated
      end
  | FDeallocPending => upd_done f FDeallocPending
  | _ => Abort
  end).

(** flow.c:184-193, reg_flow_set_data. *)
Definition flow_set_data (f : rflow) (d : buffer) : out rflow :=
  match f_data f with None => Ok (set_data d f) | Some _ => Abort end.

(** What an operation hands back: a number, a number with the caller's flow
    info and buffer, or nothing yet because the caller went to sleep. *)
Inductive reply : Type :=
| RInt : Z -> reply
| RFlow : Z -> finfo -> buffer -> reply
| RSleep : reply.

(** reg.c:669-706, reg_create_flow.  [oom]: malloc of the flow fails. *)
Definition create_flow (r : reg) (i : finfo) (oom : bool) : out (reg * reply) :=
  assert (i_id i =? 0) (
  assert (negb (i_npid i =? 0)%N) (
  assert (fstate_eqb (i_state i) FInit) (
  match bmp_allocate (r_ids r) with
  | None => Abort
  | Some (b, id) =>
      if negb (bmp_is_id_valid b id) then
        Ok (set_ids b r, RFlow (-1) (set_id id i) None)
      else
        match flow_create (set_id id i) (r_next r) with
        | Abort => Abort
        | Ok f =>
            if oom then
              match bmp_release b id with
              | None => Abort
              | Some (b, _) => Ok (set_ids b r, RFlow (-1) (set_id 0 i) None)
              end
            else
              Ok (mk_reg b (list_ins (fun g => id <? f_id g) f (r_flows r))
                    (r_names r) (r_procs r) (r_progs r) (r_next r + 1),
                  RFlow 0 (set_id id i) None)
        end
  end))).

(** reg.c:708-738, reg_destroy_flow. *)
Definition destroy_flow (r : reg) (id : Z) : out (reg * reply) :=
  assert (id_ok id) (
  match get_flow r id with
  | None => Ok (r, RInt (-1))
  | Some f =>
      match bmp_release (r_ids r) id with
      | None => Abort
      | Some (b, _) =>
          match flow_destroy f with
          | Abort => Abort
          | Ok _ =>
              Ok (set_ids b (set_flows (del_first (has_id id) (r_flows r)) r),
                  RInt 0)
          end
      end
  end).

(** reg.c:1637-1658, reg_prepare_flow_alloc. *)
Definition prepare_alloc (r : reg) (i : finfo) (rb : rbres) : out (reg * reply) :=
  assert (id_ok (i_id i)) (
  match get_flow r (i_id i) with
  | None => Abort
  | Some f =>
      assert (fstate_eqb (f_st f) FInit) (
      match flow_update f (set_state FAllocPending i) rb with
      | Abort => Abort
      | Ok (f, i, z) => Ok (put_flow f r, RFlow z i None)
      end)
  end).

(** reg.c:1716-1719: the end of the wait, handing over data and info. *)
Definition wait_end (r : reg) (f : rflow) (ret : Z) : out (reg * reply) :=
  Ok (put_flow (set_data None f) r, RFlow ret (f_info f) (f_data f)).

(** reg.c:1682-1697 and 1704: one look at the state of the flow, in which
    [pending] is the state to wait in.  The re-reading of the flow in lines
    1699-1704 finds the same flow, as the mutex is held. *)
Definition wait_look (r : reg) (f : rflow) (pending : fstate)
    (fin : reg -> rflow -> Z -> out (reg * reply)) : out (reg * reply) :=
  if fstate_eqb (f_st f) pending then Ok (r, RSleep)
  else match f_st f with
       | FAllocated => fin r f 0
       | FDeallocated => fin r f (-1)
       | _ => Abort
       end.

(** reg.c:1660-1681, reg_wait_flow_allocated up to its first sleep. *)
Definition wait_allocated (r : reg) (i : finfo) : out (reg * reply) :=
  assert (id_ok (i_id i)) (
  match get_flow r (i_id i) with
  | None => Abort
  | Some f =>
      assert (i_npid i =? f_npid f)%N (
      assert (fstate_eqb (i_state i) FAllocPending) (
      wait_look r f FAllocPending wait_end))
  end).

(** reg.c:1699-1712, after a wake-up: the pointer to the flow was taken
    before the sleep.  If that flow was destroyed, reading it in line 1699 is
    an access to freed memory.  [to]: the wait timed out. *)
Definition wake (r : reg) (id : Z) (tag : N) (to : bool) (pending : fstate)
    (fin : reg -> rflow -> Z -> out (reg * reply)) : out (reg * reply) :=
  match get_flow r id with
  | None => Abort
  | Some f =>
      assert (f_tag f =? tag)%N (
      if to then
        match flow_update f (set_state FDeallocated (f_info f)) RbOk with
        | Abort => Abort
        | Ok (f, _, _) => fin (put_flow f r) f (- ETIMEDOUT)
        end
      else wait_look r f pending fin)
  end.

Definition wake_allocated (r : reg) (id : Z) (tag : N) (to : bool) : out (reg * reply) :=
  wake r id tag to FAllocPending wait_end.

(** reg.c:1724-1772, reg_respond_alloc. *)
Definition respond_alloc (r : reg) (i : finfo) (d : buffer) : out (reg * reply) :=
  assert (fstate_eqb (i_state i) FAllocated || fstate_eqb (i_state i) FDeallocated) (
  assert (negb (fstate_eqb (i_state i) FDeallocated &&
                match d with Some _ => true | None => false end)) (
  assert (id_ok (i_id i)) (
  match get_flow r (i_id i) with
  | None => Ok (r, RInt (-1))
  | Some f =>
      if fstate_eqb (f_st f) FDeallocated then Ok (r, RInt (-1))
      else
        assert (fstate_eqb (f_st f) FAllocPending) (
        match f_data f with
        | Some _ => Abort
        | None =>
            let i := set_n1pid (f_npid f) (set_npid (f_npid f) i) in
            match flow_update f i RbOk with
            | Abort => Abort
            | Ok (f, _, z) =>
                if z <? 0 then Ok (put_flow f r, RInt (-1))
                else if fstate_eqb (i_state i) FAllocated then
                  match flow_set_data f d with
                  | Abort => Abort
                  | Ok f => Ok (put_flow f r, RInt 0)
                  end
                else Ok (put_flow f r, RInt 0)
            end
        end)
  end))).

(** reg.c:1774-1798, reg_prepare_flow_accept. *)
Definition prepare_accept (r : reg) (i : finfo) (d : buffer) : out (reg * reply) :=
  assert (id_ok (i_id i)) (
  match get_flow r (i_id i) with
  | None => Abort
  | Some f =>
      assert (negb (i_npid i =? 0)%N) (
      match flow_update f (set_state FAcceptPending i) RbOk with
      | Abort => Abort
      | Ok (f, i, z) =>
          match flow_set_data f d with
          | Abort => Abort
          | Ok f => Ok (put_flow f r, RFlow z i None)
          end
      end)
  end).

(** ** Names (reg/name.c) *)

Definition has_pid (pid : N) (l : list N) : bool := existsb (N.eqb pid) l.
Definition has_str (s : string) (l : list string) : bool := existsb (String.eqb s) l.

(** name.c:173-216, reg_name_add_active. *)
Definition name_add_active (n : rname) (pid : N) : out rname :=
  assert (0 <? pid)%N (
  assert (has_pid pid (n_procs n)) (
  Ok (set_active (match n_lb n with
                  | LbRR => n_active n ++ [pid]
                  | LbSpill => pid :: n_active n
                  end) n))).

(** name.c:218-232, reg_name_del_active. *)
Definition name_del_active (n : rname) (pid : N) : rname :=
  set_active (del_first (N.eqb pid) (n_active n)) n.

(** name.c:234-242, reg_name_get_active. *)
Definition name_get_active (n : rname) : option N := hd_error (n_active n).

(** name.c:244-270, reg_name_add_proc. *)
Definition name_add_proc (n : rname) (pid : N) : out rname :=
  assert (0 <? pid)%N (
  assert (negb (has_pid pid (n_procs n))) (
  Ok (set_procs (pid :: n_procs n) n))).

(** name.c:120-135, __reg_name_del_all_active. *)
Definition del_all (pid : N) (l : list N) : list N :=
  filter (fun x => negb (pid =? x)%N) l.

(** name.c:272-293, reg_name_del_proc; the closing assertion included. *)
Definition name_del_proc (n : rname) (pid : N) : out rname :=
  assert (0 <? pid)%N (
  if has_pid pid (n_procs n) then
    let ps := del_first (N.eqb pid) (n_procs n) in
    assert (negb (has_pid pid ps)) (
    Ok (set_procs ps (set_active (del_all pid (n_active n)) n)))
  else Ok n).

(** name.c:302-337, reg_name_add_prog. *)
Definition name_add_prog (n : rname) (exec : string) : out rname :=
  assert (negb (has_str exec (n_progs n))) (
  Ok (set_progs (exec :: n_progs n) n)).

(** name.c:339-358, reg_name_del_prog. *)
Definition name_del_prog (n : rname) (prog : string) : out rname :=
  if has_str prog (n_progs n) then
    let ps := del_first (String.eqb prog) (n_progs n) in
    assert (negb (has_str prog ps)) (Ok (set_progs ps n))
  else Ok n.

(** name.c:85-100, reg_name_destroy: nothing may be bound any more. *)
Definition name_destroy (n : rname) : out unit :=
  match n_progs n, n_procs n, n_active n with
  | [], [], [] => Ok tt
  | _, _, _ => Abort
  end.

(** A loop over the names of the registry that changes each entry. *)
Fixpoint map_names (f : rname -> out rname) (l : list rname) : out (list rname) :=
  match l with
  | [] => Ok []
  | n :: t =>
      match f n with
      | Abort => Abort
      | Ok n' => match map_names f t with
                 | Abort => Abort
                 | Ok t' => Ok (n' :: t')
                 end
      end
  end.

Definition is_name (s : string) (n : rname) : bool := String.eqb (n_name n) s.
Definition is_proc (pid : N) (p : rproc) : bool := (p_pid p =? pid)%N.
Definition is_prog (s : string) (g : rprog) : bool := String.eqb (g_name g) s.

(** reg.c:160-174, 232-244 and 376-388. *)
Definition get_name (r : reg) (s : string) : option rname := find (is_name s) (r_names r).
Definition get_proc (r : reg) (pid : N) : option rproc := find (is_proc pid) (r_procs r).
Definition get_prog (r : reg) (s : string) : option rprog := find (is_prog s) (r_progs r).

Definition put_name (n : rname) (r : reg) : reg :=
  set_names (upd_first (is_name (n_name n)) (fun _ => n) (r_names r)) r.
Definition put_proc (p : rproc) (r : reg) : reg :=
  set_rprocs (upd_first (is_proc (p_pid p)) (fun _ => p) (r_procs r)) r.
Definition put_prog (g : rprog) (r : reg) : reg :=
  set_rprogs (upd_first (is_prog (g_name g)) (fun _ => g) (r_progs r)) r.

(** reg.c:514-536, __reg_add_active_proc (adding an entry does not fail). *)
Definition add_active_proc (pid : N) (r : reg) : out reg :=
  assert (0 <? pid)%N (
  match map_names (fun n => if has_pid pid (n_procs n) then name_add_active n pid
                            else Ok n) (r_names r) with
  | Abort => Abort
  | Ok l => Ok (set_names l r)
  end).

(** reg.c:538-549, __reg_del_active_proc. *)
Definition del_active_proc (pid : N) (r : reg) : out reg :=
  assert (0 <? pid)%N (
  Ok (set_names (map (fun n => name_del_active n pid) (r_names r)) r)).

(** reg.c:1867-1875: the end of the wait in accept; the process is taken off
    the list of waiting ones of every name. *)
Definition accept_end (r : reg) (f : rflow) (ret : Z) : out (reg * reply) :=
  match del_active_proc (f_npid f) r with
  | Abort => Abort
  | Ok r => wait_end r f ret
  end.

(** reg.c:1809-1840, reg_wait_flow_accepted up to its first sleep. *)
Definition wait_accepted (r : reg) (i : finfo) : out (reg * reply) :=
  assert (id_ok (i_id i)) (
  match get_flow r (i_id i) with
  | None => Abort
  | Some f =>
      assert (i_npid i =? f_npid f)%N (
      assert (fstate_eqb (i_state i) (f_st f)) (
      assert (fstate_eqb (f_st f) FAcceptPending) (
      match add_active_proc (i_npid i) r with
      | Abort => Abort
      | Ok r => wait_look r f FAcceptPending accept_end
      end)))
  end).

Definition wake_accepted (r : reg) (id : Z) (tag : N) (to : bool) : out (reg * reply) :=
  wake r id tag to FAcceptPending accept_end.

(** reg.c:176-202 and 204-226: __reg_get_name_by_hash and
    __reg_get_pending_flow_id_for_hash.  [h] is the hash function and [x] the
    hash asked for. *)
Definition pending_flow_id (r : reg) (h : string -> N) (x : N) : out Z :=
  match find (fun n => (h (n_name n) =? x)%N) (r_names r) with
  | None => Ok (- ENAME)
  | Some n =>
      match name_get_active n with
      | None => Ok (- EAGAIN)
      | Some pid =>
          match get_accept_flow r pid with
          | None => Abort
          | Some f => Ok (f_id f)
          end
      end
  end.

(** reg.c:1886-1912, reg_wait_flow_accepting: one turn of its loop.  [to]:
    the wait timed out. *)
Definition wait_accepting (r : reg) (h : string -> N) (x : N) (to : bool)
  : out (reg * reply) :=
  match pending_flow_id r h x with
  | Abort => Abort
  | Ok z =>
      if z =? - EAGAIN then
        if to then Ok (r, RInt (- ETIMEDOUT)) else Ok (r, RSleep)
      else Ok (r, RInt z)
  end.

(** reg.c:1914-1956, reg_respond_accept. *)
Definition respond_accept (r : reg) (i : finfo) (d : buffer) (rb : rbres)
  : out (reg * reply) :=
  assert (fstate_eqb (i_state i) FAllocated) (
  assert (id_ok (i_id i)) (
  match get_flow r (i_id i) with
  | None => Ok (r, RInt (-1))
  | Some f =>
      assert (fstate_eqb (f_st f) FAcceptPending) (
      let i := set_npid (f_npid f) i in
      let '(f, d) := if (0 <? i_cyph i)%N then (set_data d f, f_data f) else (f, d) in
      match flow_update f i rb with
      | Abort => Abort
      | Ok (f, i, z) =>
          if z <? 0 then Ok (put_flow f r, RFlow (-1) i d)
          else Ok (put_flow f r, RFlow 0 i d)
      end)
  end)).

(** reg.c:1958-1982, reg_dealloc_flow. *)
Definition dealloc_flow (r : reg) (i : finfo) : out (reg * reply) :=
  assert (negb (i_id i =? 0)) (
  assert (negb (i_npid i =? 0)%N) (
  assert (id_ok (i_id i)) (
  match get_flow r (i_id i) with
  | None => Abort
  | Some f =>
      match f_data f with
      | Some _ => Abort
      | None =>
          assert (fstate_eqb (f_st f) FAllocated) (
          let f := set_info (set_state FDeallocPending (f_info f)) f in
          let i := set_n1pid (i_n1pid (f_info f)) (set_state FDeallocPending i) in
          match flow_update f i RbOk with
          | Abort => Abort
          | Ok (f, i, _) => Ok (put_flow f r, RFlow 0 i None)
          end)
      end
  end))).

(** reg.c:1984-2007, reg_dealloc_flow_resp. *)
Definition dealloc_flow_resp (r : reg) (i : finfo) : out (reg * reply) :=
  assert (negb (i_id i =? 0)) (
  assert (negb (i_n1pid i =? 0)%N) (
  assert (id_ok (i_id i)) (
  match get_flow r (i_id i) with
  | None => Abort
  | Some f =>
      match f_data f with
      | Some _ => Abort
      | None =>
          assert (fstate_eqb (f_st f) FDeallocPending) (
          let f := set_info (set_state FDeallocated (f_info f)) f in
          match flow_update f (set_state FDeallocated i) RbOk with
          | Abort => Abort
          | Ok (f, i, _) => Ok (put_flow f r, RFlow 0 i None)
          end)
      end
  end))).

(** ** Names, processes and programs (reg.c) *)

(** reg.c:918-951, reg_create_name. *)
Definition create_name (r : reg) (s : string) (pol : lb) : out (reg * reply) :=
  match get_name r s with
  | Some _ => Ok (r, RInt (- EEXIST))
  | None =>
      Ok (set_names (list_ins (fun n => String.ltb s (n_name n))
                       (mk_rname s pol [] [] []) (r_names r)) r, RInt 0)
  end.

(** proc.c:150-167 and prog.c:141-158: reg_proc_del_name, reg_prog_del_name,
    on the list of names of the entry; the closing assertion included. *)
Definition str_del (s : string) (l : list string) : out (list string) :=
  if has_str s l then
    let l' := del_first (String.eqb s) l in
    assert (negb (has_str s l')) (Ok l')
  else Ok l.

(** reg.c:430-439, __reg_del_name_from_procs. *)
Fixpoint del_name_from_procs (s : string) (l : list rproc) : out (list rproc) :=
  match l with
  | [] => Ok []
  | p :: t =>
      match str_del s (p_names p), del_name_from_procs s t with
      | Ok ns, Ok t' => Ok (mk_rproc (p_pid p) (p_prog p) ns :: t')
      | _, _ => Abort
      end
  end.

(** reg.c:441-450, __reg_del_name_from_progs. *)
Fixpoint del_name_from_progs (s : string) (l : list rprog) : out (list rprog) :=
  match l with
  | [] => Ok []
  | g :: t =>
      match str_del s (g_names g), del_name_from_progs s t with
      | Ok ns, Ok t' => Ok (mk_rprog (g_name g) (g_path g) ns :: t')
      | _, _ => Abort
      end
  end.

(** reg.c:953-982, reg_destroy_name. *)
Definition destroy_name (r : reg) (s : string) : out (reg * reply) :=
  match get_name r s with
  | None => Ok (r, RInt (-1))
  | Some n =>
      match del_name_from_procs s (r_procs r), del_name_from_progs s (r_progs r) with
      | Ok ps, Ok gs =>
          match name_destroy n with
          | Abort => Abort
          | Ok _ =>
              Ok (set_names (del_first (is_name s) (r_names r))
                    (set_rprocs ps (set_rprogs gs r)), RInt 0)
          end
      | _, _ => Abort
      end
  end.

(** reg.c:452-473, __reg_proc_update_names: the loop over the names.  [gn]
    are the names of the program, [acc] the names of the process so far. *)
Fixpoint update_names (pid : N) (gn : list string) (acc : list string)
    (l : list rname) : out (list string * list rname) :=
  match l with
  | [] => Ok (acc, [])
  | n :: t =>
      assert (negb (has_pid pid (n_procs n))) (
      if has_str (n_name n) gn then
        assert (negb (has_str (n_name n) acc)) (
        match name_add_proc n pid, update_names pid gn (n_name n :: acc) t with
        | Ok n', Ok (acc', t') => Ok (acc', n' :: t')
        | _, _ => Abort
        end)
      else
        match update_names pid gn acc t with
        | Ok (acc', t') => Ok (acc', n :: t')
        | Abort => Abort
        end)
  end.

(** reg.c:1064-1098, reg_create_proc. *)
Definition create_proc (r : reg) (pid : N) (prog : string) : out (reg * reply) :=
  match get_proc r pid with
  | Some _ => Ok (r, RInt (-1))
  | None =>
      let upd :=
        match get_prog r prog with
        | None => Ok ([], r_names r)
        | Some g => update_names pid (g_names g) [] (r_names r)
        end in
      match upd with
      | Abort => Abort
      | Ok (ns, names) =>
          Ok (set_rprocs (list_ins (fun p => (pid <? p_pid p)%N)
                            (mk_rproc pid prog ns) (r_procs r))
                (set_names names r), RInt 0)
      end
  end.

(** reg.c:278-307, __reg_cancel_flows_for_proc. *)
Definition cancel_flow (pid : N) (f : rflow) : rflow :=
  if (f_npid f =? pid)%N then
    match f_st f with
    | FAllocPending | FAcceptPending =>
        set_info (set_state FDeallocated (f_info f)) f
    | _ => f
    end
  else f.

(** reg.c:1100-1138, reg_destroy_proc (children and IPCPs left out). *)
Definition destroy_proc (r : reg) (pid : N) : out (reg * reply) :=
  match get_proc r pid with
  | None => Ok (r, RInt 0)
  | Some _ =>
      match map_names (fun n => name_del_proc n pid) (r_names r) with
      | Abort => Abort
      | Ok names =>
          Ok (set_flows (map (cancel_flow pid) (r_flows r))
                (set_names names
                   (set_rprocs (del_first (is_proc pid) (r_procs r)) r)), RInt 0)
      end
  end.

(** reg.c:1237-1295, reg_bind_proc.  Lines 1266-1268 only log. *)
Definition bind_proc (r : reg) (s : string) (pid : N) : out (reg * reply) :=
  assert (0 <? pid)%N (
  match get_name r s, get_proc r pid with
  | Some n, Some p =>
      if has_pid pid (n_procs n) then Ok (r, RInt (-1))
      else
        match name_add_proc n pid with
        | Abort => Abort
        | Ok n =>
            assert (negb (has_str s (p_names p))) (
            let p := mk_rproc (p_pid p) (p_prog p) (s :: p_names p) in
            match get_accept_flow r pid with
            | None => Ok (put_name n (put_proc p r), RInt 0)
            | Some _ =>
                match name_add_active n pid with
                | Abort => Abort
                | Ok n => Ok (put_name n (put_proc p r), RInt 0)
                end
            end)
        end
  | _, _ => Ok (r, RInt (-1))
  end).

(** reg.c:1297-1341, reg_unbind_proc. *)
Definition unbind_proc (r : reg) (s : string) (pid : N) : out (reg * reply) :=
  assert (0 <? pid)%N (
  match get_name r s, get_proc r pid with
  | Some n, Some p =>
      if has_pid pid (n_procs n) && has_str s (p_names p) then
        match name_del_proc n pid, str_del s (p_names p) with
        | Ok n, Ok ns =>
            Ok (put_name n (put_proc (mk_rproc (p_pid p) (p_prog p) ns) r), RInt 0)
        | _, _ => Abort
        end
      else Ok (r, RInt (-1))
  | _, _ => Ok (r, RInt (-1))
  end).

(** reg.c:1343-1374, reg_create_prog. *)
Definition create_prog (r : reg) (s path : string) : out (reg * reply) :=
  match get_prog r s with
  | Some _ => Ok (r, RInt 0)
  | None =>
      Ok (set_rprogs (list_ins (fun g => String.ltb s (g_name g))
                        (mk_rprog s path []) (r_progs r)) r, RInt 0)
  end.

(** reg.c:1376-1405, reg_destroy_prog. *)
Definition destroy_prog (r : reg) (s : string) : out (reg * reply) :=
  match get_prog r s with
  | None => Ok (r, RInt (-1))
  | Some g =>
      match map_names (fun n => name_del_prog n (g_path g)) (r_names r) with
      | Abort => Abort
      | Ok names =>
          Ok (set_names names
                (set_rprogs (del_first (is_prog s) (r_progs r)) r), RInt 0)
      end
  end.

(** utils.c:42-58, path_strip: what follows the last slash. *)
Fixpoint path_strip (s : string) : string :=
  match s with
  | EmptyString => EmptyString
  | String c t =>
      if existsb (Ascii.eqb "/"%char) (list_ascii_of_string t) then path_strip t
      else if Ascii.eqb c "/"%char then t else s
  end.

(** reg.c:1456-1511, reg_bind_prog.  [auto]: BIND_AUTO is set. *)
Definition bind_prog (r : reg) (s exec : string) (auto : bool) : out (reg * reply) :=
  match get_name r s, get_prog r (path_strip exec) with
  | Some n, Some g =>
      if has_str exec (n_progs n) then Ok (r, RInt (-1))
      else if has_str s (g_names g) then Ok (r, RInt (-1))
      else
        match (if auto then name_add_prog n exec else Ok n) with
        | Abort => Abort
        | Ok n =>
            Ok (put_name n
                  (put_prog (mk_rprog (g_name g) (g_path g) (s :: g_names g)) r),
                RInt 0)
        end
  | _, _ => Ok (r, RInt (-1))
  end.

(** reg.c:1513-1552, reg_unbind_prog. *)
Definition unbind_prog (r : reg) (s prog : string) : out (reg * reply) :=
  match get_name r s, get_prog r prog with
  | Some n, Some g =>
      if has_str s (g_names g) then
        match name_del_prog n prog, str_del s (g_names g) with
        | Ok n, Ok ns =>
            Ok (put_name n (put_prog (mk_rprog (g_name g) (g_path g) ns) r), RInt 0)
        | _, _ => Abort
        end
      else Ok (r, RInt (-1))
  | _, _ => Ok (r, RInt (-1))
  end.

(** reg.c:407-428, __reg_get_exec: what would be started for a hash. *)
Definition get_exec (r : reg) (h : string -> N) (x : N) : option string :=
  match find (fun n => (h (n_name n) =? x)%N) (r_names r) with
  | None => None
  | Some n => hd_error (n_progs n)
  end.

(** ** Histories *)

(** One operation on the registry.  In [ERespondAlloc], [req] is not in the
    code and not read by the model: the creation number of the flow whose
    allocation the IPCP answers. *)
Inductive ev : Type :=
| ECreateFlow (i : finfo) (oom : bool)
| EDestroyFlow (id : Z)
| EPrepareAlloc (i : finfo) (rb : rbres)
| EWaitAllocated (i : finfo)
| EWakeAllocated (id : Z) (tag : N) (to : bool)
| ERespondAlloc (i : finfo) (d : buffer) (req : N)
| EPrepareAccept (i : finfo) (d : buffer)
| EWaitAccepted (i : finfo)
| EWakeAccepted (id : Z) (tag : N) (to : bool)
| EWaitAccepting (h : string -> N) (x : N) (to : bool)
| ERespondAccept (i : finfo) (d : buffer) (rb : rbres)
| EDealloc (i : finfo)
| EDeallocResp (i : finfo)
| ECreateName (s : string) (pol : lb)
| EDestroyName (s : string)
| ECreateProc (pid : N) (prog : string)
| EDestroyProc (pid : N)
| EBindProc (s : string) (pid : N)
| EUnbindProc (s : string) (pid : N)
| ECreateProg (s path : string)
| EDestroyProg (s : string)
| EBindProg (s exec : string) (auto : bool)
| EUnbindProg (s prog : string).

Definition step (r : reg) (e : ev) : out (reg * reply) :=
  match e with
  | ECreateFlow i oom => create_flow r i oom
  | EDestroyFlow id => destroy_flow r id
  | EPrepareAlloc i rb => prepare_alloc r i rb
  | EWaitAllocated i => wait_allocated r i
  | EWakeAllocated id tag to => wake_allocated r id tag to
  | ERespondAlloc i d _ => respond_alloc r i d
  | EPrepareAccept i d => prepare_accept r i d
  | EWaitAccepted i => wait_accepted r i
  | EWakeAccepted id tag to => wake_accepted r id tag to
  | EWaitAccepting h x to => wait_accepting r h x to
  | ERespondAccept i d rb => respond_accept r i d rb
  | EDealloc i => dealloc_flow r i
  | EDeallocResp i => dealloc_flow_resp r i
  | ECreateName s pol => create_name r s pol
  | EDestroyName s => destroy_name r s
  | ECreateProc pid prog => create_proc r pid prog
  | EDestroyProc pid => destroy_proc r pid
  | EBindProc s pid => bind_proc r s pid
  | EUnbindProc s pid => unbind_proc r s pid
  | ECreateProg s path => create_prog r s path
  | EDestroyProg s => destroy_prog r s
  | EBindProg s exec auto => bind_prog r s exec auto
  | EUnbindProg s prog => unbind_prog r s prog
  end.

(** A history of operations: the registry after it, or [Abort]. *)
Fixpoint run (r : reg) (es : list ev) : out reg :=
  match es with
  | [] => Ok r
  | e :: t => match step r e with Ok (r', _) => run r' t | Abort => Abort end
  end.
