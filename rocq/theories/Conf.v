(** Model of PeerId and Configuration: src/braft/configuration.{h,cpp}. Text is a list of
    character codes.  EndPoint is IPv4 ip + port (butil); unix-socket and IPv6 extended
    endpoints of butil are not modelled. *)
From Verif Require Import Base.

Definition text := list Z.
Definition ch_colon := 58.  Definition ch_minus := 45.  Definition ch_plus := 43.
Definition ch_dot := 46.    Definition ch_comma := 44.  Definition ch_space := 32.

(** configuration.h:44-47 PeerId; ip is ip2int(addr.ip), 0 = IP_ANY; role 0 REPLICA, 1 WITNESS. *)
Record peerid := mkPeer { p_ip : Z; p_port : Z; p_idx : Z; p_role : Z }.

(** configuration.h:64-69 reset *)
Definition peer_reset : peerid := mkPeer 0 0 0 0.

(** configuration.h:71-73 is_empty *)
Definition peer_is_empty (p : peerid) : bool :=
  (p_ip p =? 0) && (p_port p =? 0) && (p_idx p =? 0).

(** configuration.h:112-118 operator< ; EndPoint's operator< is by ip then port (butil) *)
Definition peer_ltb (a b : peerid) : bool :=
  if negb (p_ip a =? p_ip b) then p_ip a <? p_ip b
  else if negb (p_port a =? p_port b) then p_port a <? p_port b
  else p_idx a <? p_idx b.
(** configuration.h:120-122 operator== *)
Definition peer_eqb (a b : peerid) : bool :=
  (p_ip a =? p_ip b) && (p_port a =? p_port b) && (p_idx a =? p_idx b).

(** *** printf / scanf fragments used by to_string and parse (C library) *)
(** "%u" *)
Fixpoint print_nat (fuel : nat) (n : Z) : text :=
  match fuel with
  | O => []
  | S f => if n <? 10 then [48 + n] else print_nat f (n / 10) ++ [48 + n mod 10]
  end.
(** "%d" (values are unbounded integers here) *)
Definition print_int (n : Z) : text :=
  if n <? 0 then ch_minus :: print_nat (S (Z.to_nat (Z.log2 (- n)))) (- n)
  else print_nat (S (Z.to_nat (Z.log2 n))) n.

Definition is_digit (c : Z) : bool := (48 <=? c) && (c <=? 57).
Definition is_space (c : Z) : bool := (c =? 32) || ((9 <=? c) && (c <=? 13)).

(** longest prefix satisfying [f], and the rest *)
Fixpoint span (f : Z -> bool) (s : text) : text * text :=
  match s with
  | [] => ([], [])
  | c :: s' => if f c then let '(a, b) := span f s' in (c :: a, b) else ([], s)
  end.
Definition value (ds : text) : Z := fold_left (fun v c => 10 * v + (c - 48)) ds 0.

(** scanf "%d": skips white space, optional sign, at least one digit *)
Definition scan_int (s : text) : option (Z * text) :=
  let s := snd (span is_space s) in
  let '(sg, s) := match s with
                  | c :: s' => if c =? ch_minus then (-1, s') else if c =? ch_plus then (1, s') else (1, s)
                  | [] => (1, s) end in
  let '(ds, r) := span is_digit s in
  match ds with [] => None | _ => Some (sg * value ds, r) end.

(** scanf "%[^:]" and "%*[:]": at least one character *)
Definition scan_nocolon (s : text) : option (text * text) :=
  let '(a, r) := span (fun c => negb (c =? ch_colon)) s in
  match a with [] => None | _ => Some (a, r) end.
Definition scan_colons (s : text) : option text :=
  let '(a, r) := span (fun c => c =? ch_colon) s in
  match a with [] => None | _ => Some r end.

(** inet_ntop(AF_INET) used by butil::ip2str *)
Definition print_ip (ip : Z) : text :=
  print_int (ip / 16777216) ++ ch_dot :: print_int (ip / 65536 mod 256) ++
  ch_dot :: print_int (ip / 256 mod 256) ++ ch_dot :: print_int (ip mod 256).

(** one octet as inet_pton accepts it: decimal, at most 255, no superfluous leading 0 *)
Definition scan_octet (s : text) : option (Z * text) :=
  let '(ds, r) := span is_digit s in
  match ds with
  | [] => None
  | c :: ds' => if (c =? 48) && negb (match ds' with [] => true | _ => false end) then None
                else if value ds <=? 255 then Some (value ds, r) else None
  end.
Definition scan_dot (s : text) : option text :=
  match s with c :: s' => if c =? ch_dot then Some s' else None | [] => None end.
Definition bind {A B} (o : option A) (f : A -> option B) : option B :=
  match o with Some x => f x | None => None end.

(** butil::str2ip: skips leading spaces, then inet_pton(AF_INET) *)
Definition str2ip (s : text) : option Z :=
  let s := snd (span is_space s) in
  bind (scan_octet s) (fun '(a, s) => bind (scan_dot s) (fun s =>
  bind (scan_octet s) (fun '(b, s) => bind (scan_dot s) (fun s =>
  bind (scan_octet s) (fun '(c, s) => bind (scan_dot s) (fun s =>
  bind (scan_octet s) (fun '(d, s) =>
    match s with [] => Some (a * 16777216 + b * 65536 + c * 256 + d) | _ => None end))))))).

(** configuration.h:104-108 to_string; butil::endpoint2str prints ip:port. The 128-byte
    buffer always suffices. *)
Definition peer_to_string (p : peerid) : text :=
  print_ip (p_ip p) ++ ch_colon :: print_int (p_port p) ++ ch_colon :: print_int (p_idx p) ++
  ch_colon :: print_int (p_role p).

(** configuration.h:77-102 parse: [None] = -1.  Simplification: ip_str[64] is unbounded.
    A role outside {0,1} is refused ([role > WITNESS] with an unsigned enum). *)
Definition peer_parse (s : text) : option peerid :=
  match scan_nocolon s with
  | None => None
  | Some (ips, s) =>
    match scan_colons s with
    | None => None
    | Some s =>
      match scan_int s with
      | None => None
      | Some (port, s) =>
        let '(idx, role) :=
          match scan_colons s with
          | None => (0, 0)
          | Some s => match scan_int s with
                      | None => (0, 0)
                      | Some (idx, s) =>
                          match scan_colons s with
                          | None => (idx, 0)
                          | Some s => match scan_int s with None => (idx, 0) | Some (r, _) => (idx, r) end
                          end
                      end
          end in
        if negb ((0 <=? role) && (role <=? 1)) then None
        else match str2ip ips with
             | None => None
             | Some ip => Some (mkPeer ip port idx role)
             end
      end
    end
  end.

(** configuration.h:330 _peers: std::set<PeerId>, as the sorted list of its elements. *)
Definition conf := list peerid.

(** std::set::insert: does nothing if an equivalent element exists.
    configuration.h:225-227 add_peer returns whether it was added. *)
Fixpoint set_insert (p : peerid) (c : conf) : conf * bool :=
  match c with
  | [] => ([p], true)
  | q :: c' => if peer_ltb p q then (p :: c, true)
               else if peer_ltb q p then let '(c'', b) := set_insert p c' in (q :: c'', b)
               else (c, false)
  end.
Definition conf_add (c : conf) (p : peerid) : conf * bool := set_insert p c.

(** configuration.h:231-233 remove_peer: std::set::erase by key *)
Fixpoint set_erase (p : peerid) (c : conf) : conf * bool :=
  match c with
  | [] => ([], false)
  | q :: c' => if peer_eqb p q then (c', true) else let '(c'', b) := set_erase p c' in (q :: c'', b)
  end.
Definition conf_remove (c : conf) (p : peerid) : conf * bool := set_erase p c.

(** configuration.h:236-238 contains(peer) *)
Definition conf_contains (c : conf) (p : peerid) : bool := existsb (peer_eqb p) c.
(** configuration.h:241-248 contains(vector) *)
Definition conf_contains_all (c : conf) (ps : list peerid) : bool :=
  forallb (conf_contains c) ps.
(** configuration.h:168-173, 180-185 construction / assignment from a vector *)
Definition conf_of (ps : list peerid) : conf := fold_left (fun c p => fst (set_insert p c)) ps [].
(** configuration.h:197 size *)
Definition conf_size (c : conf) : Z := zlen c.
(** configuration.h:251-260 equals(vector) *)
Definition conf_equals_vec (c : conf) (ps : list peerid) : bool :=
  conf_contains_all c ps && (conf_size (conf_of ps) =? conf_size c).
(** configuration.h:262-274 equals(Configuration) *)
Definition conf_equals (c d : conf) : bool :=
  (conf_size c =? conf_size d) && forallb (conf_contains d) c.
(** configuration.h:279-293 diffs: (included, excluded) *)
Definition erase_all (ps : list peerid) (c : conf) : conf :=
  fold_left (fun c p => fst (set_erase p c)) ps c.
Definition conf_diffs (c rhs : conf) : conf * conf := (erase_all rhs c, erase_all c rhs).

(** configuration.cpp:24-34 operator<<: peers separated by ',' *)
Fixpoint conf_to_string (c : conf) : text :=
  match c with
  | [] => []
  | [p] => peer_to_string p
  | p :: c' => peer_to_string p ++ ch_comma :: conf_to_string c'
  end.

(** butil::StringSplitter(',') skips empty fields *)
Fixpoint split_comma (s cur : text) : list text :=
  match s with
  | [] => match cur with [] => [] | _ => [cur] end
  | c :: s' => if c =? ch_comma
               then match cur with [] => split_comma s' [] | _ => cur :: split_comma s' [] end
               else split_comma s' (cur ++ [c])
  end.

(** configuration.cpp:36-50 parse_from: [None] = -1 *)
Fixpoint parse_fields (fs : list text) (c : conf) : option conf :=
  match fs with
  | [] => Some c
  | f :: fs' => match peer_parse f with
                | None => None
                | Some p => parse_fields fs' (fst (conf_add c p))
                end
  end.
Definition conf_parse (s : text) : option conf := parse_fields (split_comma s []) [].
