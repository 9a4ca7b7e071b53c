(** Model of libcompat/getaddrinfo.c (with the constants of Linux).

    Simplifications: an IPv4 address is its four bytes in network order, so htonl and ntohl are left out; the chain of
    ai_next is a list; the resolver's functions are oracles.  Each malloc and strdup can fail. *)
From Verif Require Import Prelude Str Libc InetModel.
Set Implicit Arguments.

(** ** the heap: the live blocks, the next name of a block, and whether the allocations to come succeed (all behind the list) *)
Record heap := mkHeap { live : list nat; next : nat; oks : list bool }.
Definition malloc (m : heap) : heap * option nat :=
  match oks m with
  | false :: t => (mkHeap (live m) (next m) t, None)
  | _ => (mkHeap (next m :: live m) (S (next m)) (tl (oks m)), Some (next m))
  end.
Definition free (m : heap) (b : nat) : res heap :=
  if existsb (Nat.eqb b) (live m) then Ok (mkHeap (filter (fun x => negb (b =? x)) (live m)) (next m) (oks m)) else UB.

(** ** the resolver *)
Record hostent := mkHost { h_name : option (list byte); h_inet : bool; h_addr_list : list (list N) }.
Inductive h_errno := HOST_NOT_FOUND | NO_DATA | TRY_AGAIN | NO_RECOVERY | H_OTHER.
Inductive eai := EAI_NONAME | EAI_AGAIN | EAI_FAIL | EAI_FAMILY | EAI_MEMORY.

(** addrinfo as hints: ai_family, ai_flags, ai_socktype, ai_protocol *)
Inductive ai_family := F_UNSPEC | F_INET | F_other.
Record hints := mkHints { passive : bool; canonname : bool; numerichost : bool; numericserv : bool;
                          family_ : ai_family; socktype : N; protocol : N }.
Definition SOCK_STREAM : N := 1.
(** an entry of the result: its block, that of its address, and the fields; the family is always AF_INET *)
Record entry := mkEntry { e_ai : nat; e_sin : nat; e_socktype : N; e_protocol : N; e_addr : list N; e_port : N;
                          e_canon : option (nat * list byte) }.

Definition INADDR_ANY : list N := [0; 0; 0; 0]%N.
Definition INADDR_LOOPBACK : list N := [127; 0; 0; 1]%N.
Definition addr_eqb (a b : list N) : bool := if list_eq_dec N.eq_dec a b then true else false.

(** libcompat/getaddrinfo.c:60-81 check_hostent_err *)
Definition check_hostent_err (hp : hostent + h_errno) : option eai :=
  match hp with
  | inr HOST_NOT_FOUND | inr NO_DATA => Some EAI_NONAME
  | inr TRY_AGAIN => Some EAI_AGAIN
  | inr NO_RECOVERY | inr H_OTHER => Some EAI_FAIL
  | inl h => match h_name h with
             | None => Some EAI_FAIL
             | Some _ => if negb (h_inet h) then Some EAI_FAIL else None
             end
  end.
(** the name of a host entry that passed the check *)
Definition host_name (hp : hostent + h_errno) : list byte :=
  match hp with inl h => match h_name h with Some n => n | None => [] end | inr _ => [] end.
(** libcompat/getaddrinfo.c:83-97 canon_name_from_hostent *)
Definition canon_name_from_hostent (m : heap) (hp : hostent + h_errno) : heap * (eai + nat * list byte) :=
  match check_hostent_err hp with
  | Some e => (m, inl e)
  | None => match malloc m with
            | (m, None) => (m, inl EAI_MEMORY)
            | (m, Some b) => (m, inr (b, host_name hp))
            end
  end.

(** limits.h HOST_NAME_MAX *)
Definition HOST_NAME_MAX : nat := 64.
(** (unsigned short)atoi(service) *)
Definition port_of (service : option (list byte)) : N :=
  match service with
  | None => 0
  | Some s => Z.to_N (fst (fst (strtol s)) mod 65536)
  end.

(** libcompat/getaddrinfo.c:120-154 alloc_entry *)
Definition alloc_entry (m : heap) (h : hints) (ip : list N) (port : N) : res (heap * option entry) :=
  match malloc m with
  | (m, None) => Ok (m, None)
  | (m, Some ai) =>
      match malloc m with
      | (m, None) => let* m := free m ai in Ok (m, None)
      | (m, Some psin) => Ok (m, Some (mkEntry ai psin (socktype h) (protocol h) ip port None))
      end
  end.

(** libcompat/getaddrinfo.c:323-337 freeaddrinfo *)
Fixpoint freeaddrinfo (m : heap) (l : list entry) : res heap :=
  match l with
  | [] => Ok m
  | e :: l =>
      let* m := match e_canon e with Some (b, _) => free m b | None => Ok m end in
      let* m := free m (e_sin e) in
      let* m := free m (e_ai e) in
      freeaddrinfo m l
  end.
Definition with_canon (e : entry) (c : nat * list byte) : entry :=
  mkEntry (e_ai e) (e_sin e) (e_socktype e) (e_protocol e) (e_addr e) (e_port e) (Some c).

Section Resolver.
  Variable gethostbyname : list byte -> hostent + h_errno.
  Variable gethostbyaddr : list N -> hostent + h_errno.
  (** what gethostname stores; None: it fails *)
  Variable gethostname : option (list byte).

  (** libcompat/getaddrinfo.c:99-110 get_my_canon_name *)
  Definition get_my_canon_name (m : heap) : heap * (eai + nat * list byte) :=
    match gethostname with
    | None => (m, inl EAI_FAIL)
    | Some n => canon_name_from_hostent m (gethostbyname (firstn HOST_NAME_MAX n))
    end.
  (** libcompat/getaddrinfo.c:112-118 get_canon_name_from_addr *)
  Definition get_canon_name_from_addr (m : heap) (ip : list N) : heap * (eai + nat * list byte) :=
    canon_name_from_hostent m (gethostbyaddr ip).

  (** libcompat/getaddrinfo.c:162-201 getaddr_info_single_addr *)
  Definition getaddr_info_single_addr (m : heap) (service : option (list byte)) (addr : list N) (h : hints) : res (heap * (eai + list entry)) :=
    let port := port_of service in
    let* ' (m, ai) := alloc_entry m h addr port in
    match ai with
    | None => Ok (m, inl EAI_MEMORY)
    | Some ai =>
        if negb (numericserv h) && canonname h then
          let '(m, c) := if addr_eqb addr INADDR_LOOPBACK || addr_eqb addr INADDR_ANY
                         then get_my_canon_name m else get_canon_name_from_addr m addr in
          match c with
          | inl err => let* m := freeaddrinfo m [ai] in Ok (m, inl err)
          | inr c => Ok (m, inr [with_canon ai c])
          end
        else Ok (m, inr [ai])
    end.

  (** libcompat/getaddrinfo.c:209-254 getaddr_info_name: the loop; [listp] is the list so far *)
  Fixpoint name_loop (m : heap) (h : hints) (name : list byte) (port : N) (ips : list (list N)) (listp : list entry) : res (heap * (eai + list entry)) :=
    match ips with
    | [] => Ok (m, inr listp)
    | ip :: ips =>
        let* ' (m, ai) := alloc_entry m h ip port in
        match ai with
        | None => let* m := freeaddrinfo m listp in Ok (m, inl EAI_MEMORY)
        | Some ai =>
            match listp with
            | [] => match malloc m with
                    | (m, None) => let* m := freeaddrinfo m [ai] in Ok (m, inl EAI_MEMORY)
                    | (m, Some b) => name_loop m h name port ips [with_canon ai (b, name)]
                    end
            | _ => name_loop m h name port ips (listp ++ [ai])
            end
        end
    end.
  (** libcompat/getaddrinfo.c:209-254 getaddr_info_name *)
  Definition getaddr_info_name (m : heap) (node : list byte) (service : option (list byte)) (h : hints) : res (heap * (eai + list entry)) :=
    let hp := gethostbyname node in
    match check_hostent_err hp with
    | Some err => Ok (m, inl err)
    | None =>
        let ips := match hp with inl h => h_addr_list h | inr _ => [] end in
        name_loop m h (host_name hp) (port_of service) ips []
    end.

  (** libcompat/getaddrinfo.c:262-320 getaddrinfo; the result is an error, or 0 and the list *)
  Definition getaddrinfo (m : heap) (node service : option (list byte)) (hintp : option hints) : res (heap * (eai + list entry)) :=
    let h := match hintp with
             | None => mkHints false false false false F_INET SOCK_STREAM 0
             | Some h => h
             end in
    match family_ h with
    | F_other => Ok (m, inl EAI_FAMILY)
    | _ =>
        let h := if (socktype h =? 0)%N
                 then mkHints (passive h) (canonname h) (numerichost h) (numericserv h) (family_ h) SOCK_STREAM (protocol h) else h in
        match node, service with
        | None, None => Ok (m, inl EAI_NONAME)
        | Some [], _ => getaddr_info_single_addr m service INADDR_ANY h
        | Some s, _ =>
            if numerichost h then
              let* ' (ip, r) := inet_pton AF_INET s [0; 0; 0; 0]%N in
              match r with
              | inr true => getaddr_info_single_addr m service ip h
              | _ => Ok (m, inl EAI_FAIL)
              end
            else getaddr_info_name m s service h
        | None, _ =>
            if passive h then getaddr_info_single_addr m service INADDR_ANY h
            else getaddr_info_single_addr m service INADDR_LOOPBACK h
        end
    end.

  (** ** getnameinfo *)
  (** sockaddr: whether sa_family is AF_INET, sin_addr and sin_port (ntohs(sin_port)) *)
  Record sockaddr := mkSock { sa_inet : bool; sin_addr : list N; sin_port : N }.
  Record ni_flags := mkNi { ni_numerichost : bool; ni_namereqd : bool; ni_nofqdn : bool; ni_numericserv : bool; ni_dgram : bool }.
  (** the database of services, by port; the protocol is "udp" or "tcp" *)
  Variable services : N -> bool -> option (list byte).
  (** getservbyport(3) takes the port in network order: an int whose two bytes a little endian machine has swapped *)
  Definition swap16 (p : N) : N := (p mod 256) * 256 + p / 256.
  Definition getservbyport (port : N) (udp : bool) : option (list byte) := services (swap16 port) udp.

  (** inet_ntoa *)
  Definition inet_ntoa (a : list N) : list byte := join (lit ".") (map udec a).

  (** libcompat/getaddrinfo.c:398-440 gethostnameinfo *)
  Definition gethostnameinfo (sa : sockaddr) (node : cells byte) (nodelen : nat) (f : ni_flags) : res (cells byte * option eai) :=
    let numeric :=
      let p := inet_ntoa (sin_addr sa) in
      let* node := msnprintf node 0 nodelen p in
      if nodelen <=? length p then Ok (node, Some EAI_MEMORY) else Ok (node, None) in
    if negb (ni_numerichost f) then
      let hp := gethostbyaddr (sin_addr sa) in
      match check_hostent_err hp with
      | None =>
          let name := host_name hp in
          let* node := msnprintf node 0 nodelen name in
          if nodelen <=? length name then Ok (node, Some EAI_MEMORY)
          else if ni_nofqdn f then
            let* s := mstr node in
            match strchr s "."%char with
            | Some p => let* node := aset node p NUL in Ok (node, None)
            | None => Ok (node, None)
            end
          else Ok (node, None)
      | Some err => if ni_namereqd f then Ok (node, Some err) else numeric
      end
    else numeric.

  (** libcompat/getaddrinfo.c:442-469 getservicenameinfo *)
  Definition getservicenameinfo (sa : sockaddr) (service : cells byte) (servicelen : nat) (f : ni_flags) : res (cells byte * option eai) :=
    let port := sin_port sa in
    let numeric :=
      let p := udec port in
      let* service := msnprintf service 0 servicelen p in
      if servicelen <=? length p then Ok (service, Some EAI_MEMORY) else Ok (service, None) in
    if negb (ni_numericserv f) then
      match getservbyport port (ni_dgram f) with
      | Some name =>
          let* service := msnprintf service 0 servicelen name in
          if servicelen <=? length name then Ok (service, Some EAI_MEMORY) else Ok (service, None)
      | None => numeric
      end
    else numeric.

  (** libcompat/getaddrinfo.c:476-504 getnameinfo; None as error: 0 *)
  Definition getnameinfo (sa : option sockaddr) (salen : nat) (node : option (cells byte)) (nodelen : nat)
    (service : option (cells byte)) (servicelen : nat) (f : ni_flags) : res (option (cells byte) * option (cells byte) * option eai) :=
    match sa with
    | None => Ok (node, service, Some EAI_FAIL)
    | Some sa =>
        if match node, service with None, None => true | _, _ => false end then Ok (node, service, Some EAI_FAIL)
        else if negb (sa_inet sa) then Ok (node, service, Some EAI_FAIL)
        else if salen <? 16 then Ok (node, service, Some EAI_FAIL)
        else
          let* ' (node, r) := match node with
                              | Some n => let* ' (n, r) := gethostnameinfo sa n nodelen f in Ok (Some n, r)
                              | None => Ok (None, None)
                              end in
          match r with
          | Some e => Ok (node, service, Some e)
          | None =>
              match service with
              | Some s => let* ' (s, r) := getservicenameinfo sa s servicelen f in Ok (node, Some s, r)
              | None => Ok (node, None, None)
              end
          end
    end.
End Resolver.
