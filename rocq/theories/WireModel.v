(** The protobuf wire format (proto2) as protobuf-c reads and writes it.

    protobuf-c is not part of /repo, but every message that the daemons,
    the library and the IPCPs exchange (src/lib/pb/*.proto,
    src/ipcpd/unicast/dir/dht.proto) goes through it.  The functions below
    model protobuf_c_message_pack, protobuf_c_message_unpack and the
    generated X__pack, X__unpack, X__get_packed_size wrappers; they are
    part of the trusted base.  A byte is an N below 256.

    Simplifications: memory is never exhausted; a field that the message
    type does not know is skipped (protobuf-c keeps it aside). *)
From Coq Require Import NArith ZArith List Bool.
Import ListNotations.
Local Open Scope N_scope.

(** What follows a tag: a variable length number, 8 bytes, a counted
    string of bytes, 4 bytes. *)
Inductive wval : Type :=
| WVar (n : N)
| W64 (l : list N)
| WLen (l : list N)
| W32 (l : list N).

Notation field := (N * wval)%type.

(** A number, seven bits at a time, least significant first; at most ten
    bytes (uint64_pack).  A negative int32 is written as the 64-bit number
    with the same meaning, hence in ten bytes (int32_pack). *)
Fixpoint varint (fuel : nat) (n : N) : list N :=
  match fuel with
  | O => [n mod 128]
  | S f => if n <? 128 then [n] else (n mod 128 + 128) :: varint f (n / 128)
  end.
Definition put_varint (n : N) : list N := varint 9 n.

Definition put_field (f : field) : list N :=
  match f with
  | (t, WVar n) => put_varint (8 * t) ++ put_varint n
  | (t, W64 l) => put_varint (8 * t + 1) ++ l
  | (t, WLen l) => put_varint (8 * t + 2) ++ put_varint (N.of_nat (length l)) ++ l
  | (t, W32 l) => put_varint (8 * t + 5) ++ l
  end.

(** X__pack; its length is X__get_packed_size. *)
Definition pack (fs : list field) : list N := flat_map put_field fs.

(** A number of at most [max] bytes, and what follows it (scan_varint,
    parse_tag_and_wiretype, scan_length_prefixed_data). *)
Fixpoint get_varint (max : nat) (l : list N) : option (N * list N) :=
  match max, l with
  | O, _ => None
  | _, [] => None
  | S m, b :: r =>
      if b <? 128 then Some (b, r)
      else match get_varint m r with
           | Some (v, r') => Some (b - 128 + 128 * v, r')
           | None => None
           end
  end.

Definition INT_MAX : N := 2147483647.

(** The next [n] bytes, if there are that many. *)
Definition take (n : N) (l : list N) : option (list N * list N) :=
  if n <=? N.of_nat (length l)
  then Some (firstn (N.to_nat n) l, skipn (N.to_nat n) l) else None.

(** One field: the tag in at most five bytes, a number in at most ten, a
    count in at most five and not above INT_MAX. *)
Definition get_field (l : list N) : option (field * list N) :=
  match get_varint 5 l with
  | None => None
  | Some (k, r) =>
      let t := k / 8 in
      match k mod 8 with
      | 0 => match get_varint 10 r with
             | Some (v, r') => Some ((t, WVar v), r')
             | None => None
             end
      | 1 => match take 8 r with
             | Some (d, r') => Some ((t, W64 d), r')
             | None => None
             end
      | 2 => match get_varint 5 r with
             | Some (n, r') =>
                 if INT_MAX <? n then None
                 else match take n r' with
                      | Some (d, r'') => Some ((t, WLen d), r'')
                      | None => None
                      end
             | None => None
             end
      | 5 => match take 4 r with
             | Some (d, r') => Some ((t, W32 d), r')
             | None => None
             end
      | _ => None
      end
  end.

Fixpoint get_fields (fuel : nat) (l : list N) : option (list field) :=
  match l with
  | [] => Some []
  | _ =>
      match fuel with
      | O => None
      | S f =>
          match get_field l with
          | None => None
          | Some (x, r) =>
              match get_fields f r with
              | Some fs => Some (x :: fs)
              | None => None
              end
          end
      end
  end.

(** The fields of a message; None if the bytes are not a message.  Every
    field takes at least one byte, so the fuel always suffices. *)
Definition unpack (l : list N) : option (list field) := get_fields (length l) l.

(** The numeric field with tag [t]: None if it is there with another wire
    type (the message is refused), otherwise its last occurrence. *)
Fixpoint num_field (t : N) (fs : list field) : option (option N) :=
  match fs with
  | [] => Some None
  | (t', v) :: fs' =>
      match num_field t fs' with
      | None => None
      | Some r =>
          if t' =? t then
            match v with
            | WVar n => Some (match r with Some _ => r | None => Some n end)
            | _ => None
            end
          else Some r
      end
  end.

(** The bytes or string field with tag [t], in the same way. *)
Fixpoint len_field (t : N) (fs : list field) : option (option (list N)) :=
  match fs with
  | [] => Some None
  | (t', v) :: fs' =>
      match len_field t fs' with
      | None => None
      | Some r =>
          if t' =? t then
            match v with
            | WLen d => Some (match r with Some _ => r | None => Some d end)
            | _ => None
            end
          else Some r
      end
  end.

(** The message field with tag [t]: every occurrence must be a message by
    itself; a later one is merged over an earlier one. *)
Fixpoint msg_field {A : Type} (dec : list N -> option A) (merge : A -> A -> A)
    (t : N) (fs : list field) : option (option A) :=
  match fs with
  | [] => Some None
  | (t', v) :: fs' =>
      match msg_field dec merge t fs' with
      | None => None
      | Some r =>
          if t' =? t then
            match v with
            | WLen d =>
                match dec d with
                | None => None
                | Some a => Some (Some (match r with
                                        | Some b => merge a b
                                        | None => a
                                        end))
                end
            | _ => None
            end
          else Some r
      end
  end.

(** A required field: the message is refused without it. *)
Definition req {A : Type} (o : option (option A)) : option A :=
  match o with Some (Some a) => Some a | _ => None end.

(** parse_uint32, parse_uint64, parse_int32 and parse_int64. *)
Definition u32 (n : N) : N := n mod 2 ^ 32.
Definition u64 (n : N) : N := n mod 2 ^ 64.
Definition i32 (n : N) : Z :=
  let m := Z.of_N (u32 n) in if (m <? 2 ^ 31)%Z then m else (m - 2 ^ 32)%Z.
Definition i64 (n : N) : Z :=
  let m := Z.of_N (u64 n) in if (m <? 2 ^ 63)%Z then m else (m - 2 ^ 64)%Z.

(** The number written for a signed value: its 64-bit two's complement. *)
Definition sext (z : Z) : N := Z.to_N (z mod 2 ^ 64).

(** A C string: the bytes before the first zero byte.  A string field is
    copied with a zero byte behind it, so a zero byte inside ends it. *)
Fixpoint cstr (l : list N) : list N :=
  match l with
  | [] => []
  | b :: r => if b =? 0 then [] else b :: cstr r
  end.
