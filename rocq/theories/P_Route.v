(** C34: the client route table. *)
From Verif Require Import Base Route RouteSpec RouteProofs.

(** After any calls about any groups, the answers for group g are determined by the calls
    about g alone: its latest registered configuration, and the latest leader report that
    no later configuration contradicts. *)
Theorem route_table_answers : forall os g,
  let h := rev (filter (fun o => group_of o =? g) os) in
  let m := route_run [] os in
  list_conf m g = reg_conf h /\
  select_leader m g = match reg_conf h with
                      | None => (-1, EMPTY)
                      | Some _ => match reg_leader h with Some l => (0, l) | None => (1, EMPTY) end
                      end.
Proof. exact route_ok. Qed.

(** Right after a configuration update the leader answered (if any) belongs to it. *)
Theorem route_table_drops_outsider : forall os g c l,
  c <> [] -> select_leader (route_run [] (os ++ [OConf g c])) g = (0, l) -> In l c.
Proof. exact conf_update_leader_in. Qed.

Example ex_route :
  let os := [OConf 1 [10;11]; OLeader 1 10; OLeader 2 20; OConf 2 [20;21];
             ORefresh 2 (fun p => if p =? 21 then Some 20 else None); OConf 1 [10;12]; OConf 3 [5]; ORemove 3] in
  let m := route_run [] os in
  select_leader m 1 = (0, 10) /\ select_leader m 2 = (0, 20) /\ select_leader m 3 = (-1, EMPTY) /\
  select_leader (route_run m [OConf 1 [11;12]]) 1 = (1, EMPTY).
Proof. repeat split; reflexivity. Qed.

(** update_leader itself does not check membership: the leader answered may lie outside
    the registered configuration until the next configuration update. *)
Theorem route_table_leader_in_conf_refuted :
  ~ (forall os g l c, select_leader (route_run [] os) g = (0, l) -> list_conf (route_run [] os) g = Some c -> In l c).
Proof.
  intros H. specialize (H [OConf 1 [10]; OLeader 1 99] 1 99 [10] eq_refl eq_refl).
  cbn in H. destruct H as [H|[]]; discriminate.
Qed.

Print Assumptions route_table_answers.
Print Assumptions route_table_drops_outsider.
Print Assumptions route_table_leader_in_conf_refuted.
