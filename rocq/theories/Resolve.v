(** Model of resolve_connections / validate_resolution
    (/repo/parametricmatrixmodels/graph_util.py L685-786). *)
From Verif Require Import Base.
From Coq Require Export ZArith.

Definition graph := dict (list string).

(** [graph.get(node, [])] (L723, L738, L750). *)
Definition neighbors (g : graph) (u : string) : list string :=
  match dget g u with Some vs => vs | None => [] end.

(** L702-705: the reverse graph ([defaultdict(list)], appended in order). *)
Definition add_rev (r : graph) (node nb : string) : graph :=
  dset r nb (neighbors r nb ++ [node]).
Definition reverse_graph (g : graph) : graph :=
  fold_left (fun r '(node, nbs) => fold_left (fun r nb => add_rev r node nb) nbs r) g [].

(** L707-709: in-degrees ([defaultdict(int)]), counting every edge of the
    dictionary with multiplicity. *)
Definition deg := dict Z.
Definition deg_get (d : deg) (k : string) : Z :=
  match dget d k with Some n => n | None => 0%Z end.
Definition deg_add (d : deg) (k : string) (n : Z) : deg := dset d k (deg_get d k + n)%Z.
Definition in_degrees (g : graph) : deg :=
  fold_left (fun d '(_, nbs) => fold_left (fun d nb => deg_add d nb 1) nbs d) g [].

Definition num_edges (g : graph) : nat := list_sum (map (fun kv => length (snd kv)) g).

(** L714-725 and L730-740: depth-first search.  The stack is kept with its top
    at the head of the list ([stack.append] pushes on the head). Sets are lists
    in insertion order. *)
Fixpoint dfs (g : graph) (fuel : nat) (stack visited : list string) : result (list string) :=
  match stack with
  | [] => Ok visited
  | node :: stack' =>
      match fuel with
      | 0 => Err OutOfFuel
      | S f =>
          if mem_str node visited then dfs g f stack' visited
          else
            let visited' := visited ++ [node] in
            let push := filter (fun nb => negb (mem_str nb visited')) (neighbors g node) in
            dfs g f (rev push ++ stack') visited'
      end
  end.
Definition dfs_from (g : graph) (k : string) : result (list string) :=
  dfs g (2 + num_edges g) [k] [].

(** L745-755: the queue loop. *)
Definition relax (all_nodes : list string) (st : deg * list string) (nb : string)
  : deg * list string :=
  let '(d, q) := st in
  if mem_str nb all_nodes then
    let d' := deg_add d nb (-1) in
    (d', if (deg_get d' nb =? 0)%Z then q ++ [nb] else q)
  else (d, q).

Fixpoint kahn (g : graph) (all_nodes : list string) (fuel : nat)
    (queue : list string) (d : deg) (order : list string) : result (list string) :=
  match queue with
  | [] => Ok order
  | node :: queue' =>
      match fuel with
      | 0 => Err OutOfFuel
      | S f =>
          let '(d', q') := fold_left (relax all_nodes) (neighbors g node) (d, queue') in
          kahn g all_nodes f q' d' (order ++ [node])
      end
  end.

(** validate_resolution, L769-786 ([order] is never empty when it is called). *)
Definition validate_resolution (order all_nodes : list string) (start_key end_key : string)
  : result unit :=
  if negb (length order =? length all_nodes) then Err RuntimeError
  else if negb (String.eqb (hd EmptyString order) start_key) then Err RuntimeError
  else if negb (String.eqb (last order EmptyString) end_key) then Err RuntimeError
  else Ok tt.

(** resolve_connections, L685-766: the order and the final content of
    [visited] (the nodes that can reach [end_key]). *)
Definition resolve_connections (g : graph) (start_key end_key : string)
  : result (list string * list string) :=
  let* reachable := dfs_from g start_key in
  let* reverse_reachable := dfs_from (reverse_graph g) end_key in
  let all_nodes := filter (fun v => mem_str v reverse_reachable) reachable in
  let* order := kahn g all_nodes (2 + num_edges g) [start_key] (in_degrees g) [] in
  let* _ := validate_resolution order all_nodes start_key end_key in
  Ok (order, reverse_reachable).
