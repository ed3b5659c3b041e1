(** Vocabulary of C34: what one group's entry must be, from the history of calls, most
    recent first.  Calls about other groups do not occur in it. *)
From Verif Require Import Base Route.

Definition group_of (o : rop) : Z :=
  match o with OConf g _ => g | OLeader g _ => g | ORemove g => g | ORefresh g _ => g end.

(** The configuration registered: the latest non-empty one since the group was removed. *)
Fixpoint reg_conf (h : list rop) : option (list peer) :=
  match h with
  | [] => None
  | ORemove _ :: _ => None
  | OConf _ (p :: c) :: _ => Some (p :: c)
  | _ :: h' => reg_conf h'
  end.

(** The leader known: the latest reported one since registration, provided every
    configuration registered after that report contains it. *)
Fixpoint reg_leader (h : list rop) : option peer :=
  match h with
  | [] => None
  | ORemove _ :: _ => None
  | OConf _ [] :: h' => reg_leader h'
  | OConf _ c :: h' => match reg_leader h' with
                       | Some l => if memb l c then Some l else None
                       | None => None
                       end
  | OLeader _ l :: h' => match reg_conf h' with
                         | None => None
                         | Some _ => if l =? EMPTY then None else Some l
                         end
  | ORefresh _ ask :: h' =>
      match reg_conf h' with
      | None => None
      | Some ps =>
          (* the first peer of the configuration that answers *)
          match find (fun p => match ask p with Some _ => true | None => false end) ps with
          | None => reg_leader h'
          | Some p => match ask p with
                      | Some l => if l =? EMPTY then None else Some l
                      | None => None
                      end
          end
      end
  end.
