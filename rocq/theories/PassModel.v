(** Model of libutils/passopenfile.c with the interface of the Single UNIX Specification (HAVE_MSGHDR_MSG_CONTROL), on Linux.

    The socket is a queue of the messages that were sent and not yet received; on Linux a
    recvmsg that received descriptors ends with the message they came with.  What is logged is left
    out (but the buffer it reads must end); allocations succeed. *)
From Verif Require Import Prelude Str Libc.
Set Implicit Arguments.

(** an open file (an open file description), and the descriptors of a process *)
Definition file := nat.
Definition table := list (nat * file).
Definition lookup (t : table) (fd : Z) : option file :=
  match find (fun df => (Z.of_nat (fst df) =? fd)%Z) t with Some df => Some (snd df) | None => None end.
(** a message: its bytes, and its control message: [inl files] SCM_RIGHTS, [inr tt] another type *)
Record message := mkMsg { bytes : list byte; control : option (list file + unit) }.

(** libutils/passopenfile.c:31 MAX_MESSAGE_SIZE, libutils/passopenfile.c:69-182 PassOpenFile_Put: NULL_MSG with its final NUL *)
Definition MAX_MESSAGE_SIZE : nat := 1024.
Definition NULL_MSG : list byte := NUL :: lit "NULL" ++ [NUL].

(** libutils/passopenfile.c:69-182 PassOpenFile_Put, the second one.  [t]: the descriptors of the process; [sends]: whether
    sendmsg finds no other error than a bad descriptor.  The queue then, and the result. *)
Definition PassOpenFile_Put (t : table) (q : list message) (descriptor : Z) (text : option (list byte)) (sends : bool) : res (list message * bool) :=
  let content := match text with Some s => s ++ [NUL] | None => NULL_MSG end in
  massert (length content <=? MAX_MESSAGE_SIZE)%nat
  match lookup t descriptor with
  | Some f => if sends then Ok (q ++ [mkMsg content (Some (inl [f]))], true) else Ok (q, false)
  | None => Ok (q, false)
  end.

(** what recvmsg finds: an error, or the free descriptors the kernel may use *)
Inductive receiving := RError | RFree (free : list nat).
(** the descriptors that fit the control buffer: CMSG_SPACE(sizeof(int)) has room for two *)
Definition CONTROL_ROOM : nat := 2.
(** recvmsg into [size] bytes: the descriptors of the process then, the rest of the queue, the bytes, and the control message
    with the descriptors that were opened; no message at the end of the stream *)
Definition recvmsg (t : table) (q : list message) (free : list nat) (size : nat) : table * list message * list byte * option (list nat + unit) :=
  match q with
  | [] => (t, [], [], None)
  | m :: q =>
      let q := match skipn size (bytes m) with [] => q | rest => mkMsg rest None :: q end in
      match control m with
      | None => (t, q, firstn size (bytes m), None)
      | Some (inr _) => (t, q, firstn size (bytes m), Some (inr tt))
      | Some (inl fs) =>
          let opened := combine (firstn CONTROL_ROOM free) fs in
          (opened ++ t, q, firstn size (bytes m), match opened with [] => None | _ => Some (inl (map fst opened)) end)
      end
  end.
(** what [*text] is set to: nothing, NULL or a string *)
Inductive text_result := Unset | SetNull | SetText (s : list byte).
(** libutils/passopenfile.c:184-308 PassOpenFile_Get, the second one; the text is returned if [text] is not NULL *)
Definition PassOpenFile_Get (t : table) (q : list message) (text : bool) (env : receiving) : res (table * list message * Z * text_result) :=
  match env with
  | RError => Ok (t, q, -1, Unset)%Z
  | RFree free =>
      let '(t, q, data, control) := recvmsg t q free MAX_MESSAGE_SIZE in
      let buffer := data ++ repeat NUL (MAX_MESSAGE_SIZE - length data) in
      match control with
      | None => Ok (t, q, -1, Unset)%Z
      | Some (inr _) => Ok (t, q, -1, Unset)%Z
      | Some (inl fds) =>
          massert (length fds =? 1)%nat
          match fds with
          | fd :: _ =>
              (* strcmp(buffer + 1, "NULL"): within the buffer if it has a NUL *)
              if negb (beq (nth 0 buffer NUL) NUL) || negb (bytes_eqb (upto_nul (skipn 1 buffer)) (lit "NULL"))
              then (* the message logged prints the buffer with %s *)
                   if existsb (fun c => beq c NUL) buffer then Ok (t, q, Z.of_nat fd, if text then SetText (upto_nul buffer) else Unset) else UB
              else Ok (t, q, Z.of_nat fd, if text then SetNull else Unset)
          | [] => UB
          end
      end
  end.
