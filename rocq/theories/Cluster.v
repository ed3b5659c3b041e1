(** A group of nodes: every node runs Node.v, messages may be lost, duplicated, delayed and
    reordered (every message ever sent can be delivered at any time, any number of times). *)
From Verif Require Import Base LogEntry Node.

Record cluster := mkCl { nodes : peer -> node; net : list msg; trace : list (peer * nout) }.

Definition upd (f : peer -> node) (p : peer) (n : node) : peer -> node :=
  fun q => if q =? p then n else f q.

Definition sends (o : list nout) : list msg :=
  flat_map (fun x => match x with OSend m => [m] | _ => [] end) o.

Definition id_eqb' (a b : logid) := (li_index a =? li_index b) && (li_term a =? li_term b).
Definition lent_eqb (a b : lent) := (l_term a =? l_term b) && (l_val a =? l_val b).
Fixpoint lents_eqb (a b : list lent) : bool :=
  match a, b with
  | [], [] => true
  | x :: a', y :: b' => lent_eqb x y && lents_eqb a' b'
  | _, _ => false
  end.
Definition msg_eqb (a b : msg) : bool :=
  match a, b with
  | MVoteReq c t l v, MVoteReq c' t' l' v' => (c =? c') && (t =? t') && id_eqb' l l' && (v =? v')
  | MVoteResp f c t v g r, MVoteResp f' c' t' v' g' r' =>
      (f =? f') && (c =? c') && (t =? t') && (v =? v') && Bool.eqb g g' && (r =? r')
  | MApp l t p pt es c, MApp l' t' p' pt' es' c' =>
      (l =? l') && (t =? t') && (p =? p') && (pt =? pt') && lents_eqb es es' && (c =? c')
  | MAppOk f t u, MAppOk f' t' u' => (f =? f') && (t =? t') && (u =? u')
  | _, _ => false
  end.

(** An event at node [p] that is the receipt of a message needs that message to have been
    sent by another node (replicators and vote requests skip the node itself). *)
Definition received (p : peer) (e : nev) : option (peer * msg) :=
  match e with
  | NVoteReq1 c t l v => Some (c, MVoteReq c t l v)
  | NVoteResp f rt0 v g rt _ _ => Some (f, MVoteResp f p rt0 v g rt)
  | NAppend f t prev pt es c _ => Some (f, MApp f t prev pt es c)
  | NRespOpen f t u => Some (f, MAppOk f t u)
  | _ => None
  end.
Definition deliverable (c : cluster) (p : peer) (e : nev) : bool :=
  match received p e with
  | None => true
  | Some (from, m) => negb (from =? p) && existsb (msg_eqb m) (net c)
  end.

Section WithConf.
Variable conf : list peer.
Variable conf_val : Z.

Definition cinit : cluster := mkCl node_init [] [].

Definition cstep (c : cluster) (pe : peer * nev) : option cluster :=
  let '(p, e) := pe in
  if deliverable c p e then
    match nstep conf conf_val (nodes c p) e with
    | None => None
    | Some (n, o) =>
        Some (mkCl (upd (nodes c) p n) (sends o ++ net c) (map (pair p) o ++ trace c))
    end
  else None.

Fixpoint crun (c : cluster) (es : list (peer * nev)) : option cluster :=
  match es with
  | [] => Some c
  | e :: es' => match cstep c e with None => None | Some c' => crun c' es' end
  end.
End WithConf.
