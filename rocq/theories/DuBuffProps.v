(** C10: header and trailer space bookkeeping. *)
From Coq Require Import List NArith Bool.
From Verif Require Import DuBuffModel DuBuffSpec DuBuffProofs.
Import ListNotations.
Open Scope N_scope.

(** Every history of pushes, pops, reads and cuts on a new packet returns what
    the list of bytes with room around it returns, and the packet stays inside
    its buffer. *)
Theorem du_buff_exact m payload ops : blen payload < 2 ^ 62 -> Forall reasonable ops ->
  forall rs, spec_run (mk_packet 256 payload 32) ops = Some rs ->
  exists s', run (new_packet m payload) ops = Some (s', rs) /\
             du_head s' <= du_tail s' /\ du_tail s' <= 256 + blen payload + 32.
Proof. exact (c10 m payload ops). Qed.
Print Assumptions du_buff_exact.

(** An assertion fails exactly when more is popped than the packet holds. *)
Theorem du_buff_asserts_exact m payload ops : blen payload < 2 ^ 62 ->
  Forall reasonable ops -> Forall no_trunc ops ->
  option_map snd (run (new_packet m payload) ops) = spec_run (mk_packet 256 payload 32) ops.
Proof. intros H. exact (run_equal ops _ _ (rep_new m payload H)). Qed.
Print Assumptions du_buff_asserts_exact.

(** Cutting a packet to more than its length passes the assert although it
    makes the packet reach past its buffer. *)
Theorem du_buff_truncate_refuted : exists m payload s n,
  run (new_packet m payload) [Truncate n] = Some (s, [ROk]) /\ size s < du_tail s.
Proof. exists (fun _ => 0), [1; 2; 3], (mk_sdb 291 256 547 (mem (new_packet (fun _ => 0) [1; 2; 3]))), 291.
  split; reflexivity. Qed.
Print Assumptions du_buff_truncate_refuted.

Example du_buff_ex :
  spec_run (mk_packet 256 [1; 2; 3] 32)
    [PushHead [7; 8]; PushTail [9]; ReadAll; PopHead 2; Len; PopTail 1; ReadAll; PushTail (repeat 0 32); PushTail (repeat 0 31); Len; Truncate 2; ReadAll]
  = Some [ROk; ROk; RBytes [7; 8; 1; 2; 3; 9]; RBytes [7; 8]; RLen 4; RBytes [9]; RBytes [1; 2; 3]; RNull; ROk; RLen 34; ROk; RBytes [1; 2]].
Proof. vm_compute. reflexivity. Qed.
