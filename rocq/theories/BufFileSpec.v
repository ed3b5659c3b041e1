(** What the adaptors' users see, from the calls and their results. *)
From Verif Require Import Base BufFile.
Local Open Scope nat_scope.

(** ** Reading a file whose contents are F.  A call: offset, size, what do_read was asked for and answered, the result (the latest call first). *)
Record rcall := mkRC { c_off : nat; c_size : nat; c_need : option nat; c_ans : rans; c_res : rres }.
Definition zeros (n : nat) : list Z := repeat 0%Z n.
(** the bytes the device has delivered *)
Fixpoint fetched (h : list rcall) : nat :=
  match h with [] => 0 | c :: t => fetched t + match c_need c, c_ans c with Some _, ROk _ n => n | _, _ => 0 end end.
(** the offset of the last call that was let through *)
Fixpoint lastoff (h : list rcall) : nat :=
  match h with
  | [] => 0
  | c :: t => match c_need c, c_res c with None, RErr _ => lastoff t | _, _ => c_off c end
  end.
(** the device has reached the end of the file, as the adaptor is told to conclude: a call delivered less than was asked for *)
Fixpoint ended (h : list rcall) : bool :=
  match h with [] => false | c :: t => ended t || match c_need c, c_ans c with Some need, ROk _ n => Nat.ltb n need | _, _ => false end end.
(** the error of the device, if it had one *)
Fixpoint failed (h : list rcall) : option nat :=
  match h with [] => None | c :: t => match failed t with Some e => Some e | None => match c_need c, c_ans c with Some _, RFail e => Some (errno_or_eio e) | _, _ => None end end end.
(** header :217-220: what do_read must do: deliver the next bytes (zeros at the end may be left out), fewer than asked for only at the end of the file *)
Definition delivers (F : list Z) (pos : nat) (need : option nat) (a : rans) : Prop :=
  match need, a with
  | Some k, ROk d n => pos + n <= length F /\ length d <= n /\ d ++ zeros (n - length d) = firstn n (skipn pos F) /\ (n < k -> pos + n = length F)
  | _, _ => True
  end.
Inductive reads (F : list Z) : rd -> list rcall -> Prop :=
| reads0 : reads F rd0 []
| reads1 s h off size a s' need r : reads F s h -> read off size a s = (s', need, r) -> delivers F (fetched h) need a -> reads F s' (mkRC off size need a r :: h).

(** ** Writing. *)
Record wcall := mkWC { k_off : nat; k_data : list Z; k_ans : wans; k_res : wres }.
Inductive writes : wr -> list wcall -> Prop :=
| writes0 : writes wr0 []
| writes1 s h off d a s' r : writes s h -> write off d a s = (s', r) -> writes s' (mkWC off d a r :: h).
(** what was accepted: every byte with its place, in order *)
Fixpoint accepted (h : list wcall) : list (nat * Z) :=
  match h with [] => [] | c :: t => accepted t ++ match k_res c with WSize _ => place (k_off c) (k_data c) | WErr _ => [] end end.
(** the end of what was accepted *)
Fixpoint wend (h : list wcall) : nat :=
  match h with [] => 0 | c :: t => match k_res c with WSize _ => k_off c + length (k_data c) | WErr _ => wend t end end.
(** no call left a hole while the device had not yet taken everything *)
Definition calm (h : list wcall) : Prop :=
  forall h1 c h2 s, h = h1 ++ c :: h2 -> writes s h2 -> wend h2 < k_off c -> wclose s = true.
(** the device takes all it is given, always *)
Definition takes_all (h : list wcall) : Prop :=
  forall h1 c h2 s, h = h1 ++ c :: h2 -> writes s h2 -> exists n, k_ans c = WOk n /\ length (w_buf s) + length (k_data c) <= n.
