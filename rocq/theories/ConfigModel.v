(** Model of the configuration of a grid before and after initialize, and of the levels and
    options of hierarchical partitioning: dccrg.hpp.  Definitions only. *)
From Coq Require Import String.
From Verif Require Import U64 MapModel DblModel HoodModel Sets MeshModel RefineModel BalanceModel.
Open Scope Z_scope.

Section Config.
Context {D : Type} (d0 : D) (np : Z).

(** members of Dccrg set by the configuration functions; [cf_of] is neighborhood_of, to which
    initialize_neighborhoods appends, and [cf_cells] the processes after the creation of cells *)
Record config := Config {
  cf_map : mapping; cf_topo : topo; cf_len : Z; cf_mapped : bool; cf_ready : bool;
  cf_of : hood; cf_cells : option (outcome (Z -> proc D))
}.
(** dccrg.hpp:7244-7249, dccrg_mapping.hpp:76-80, dccrg_topology.hpp:49: a new instance *)
Definition new_grid : config := Config default_mapping (Topo false false false) 1 false false [] None.

Inductive setting :=
  | Set_length (given : lengths)
  | Set_level (l : Z)
  | Set_periodic (x y z : bool)
  | Set_neighborhood (n : Z)
  | Initialize.

(** dccrg.hpp:8297-8314; [false] is a thrown exception *)
Definition set_initial_length (c : config) (given : lengths) : bool * config :=
  if cf_mapped c then (false, c) else
  let '(ok, m) := set_length (cf_map c) given in
  if ok then (true, Config m (cf_topo c) (cf_len c) true (cf_ready c) (cf_of c) (cf_cells c))
  else (false, Config m (cf_topo c) (cf_len c) (cf_mapped c) (cf_ready c) (cf_of c) (cf_cells c)).
(** dccrg.hpp:8331-8344 *)
Definition set_level (c : config) (l : Z) : bool * config :=
  let with_map m := Config m (cf_topo c) (cf_len c) (cf_mapped c) (cf_ready c) (cf_of c) (cf_cells c) in
  if l <? 0 then
    (true, with_map (snd (set_maximum_refinement_level (cf_map c) (get_maximum_possible_refinement_level (cf_map c)))))
  else let '(ok, m) := set_maximum_refinement_level (cf_map c) l in (ok, with_map m).
(** dccrg.hpp:8360-8365 *)
Definition set_periodic (c : config) (x y z : bool) : bool * config :=
  (true, Config (cf_map c) (Topo x y z) (cf_len c) (cf_mapped c) (cf_ready c) (cf_of c) (cf_cells c)).
(** dccrg.hpp:8383-8386 *)
Definition set_neighborhood_length (c : config) (n : Z) : bool * config :=
  (true, Config (cf_map c) (cf_topo c) n (cf_mapped c) (cf_ready c) (cf_of c) (cf_cells c)).
(** dccrg.hpp:485-562: MPI and Zoltan succeed; the lists are created from the neighborhood that
    initialize_neighborhoods makes *)
Definition initialize_grid (c : config) : bool * config :=
  if cf_ready c then (false, c) else
  if negb (cf_mapped c) then (false, Config (cf_map c) (cf_topo c) (cf_len c) (cf_mapped c) true (cf_of c) (cf_cells c)) else
  let cells := initialize d0 (Grid (cf_map c) (cf_topo c) (cf_len c) np) in
  (match cells with Done _ => true | _ => false end,
   Config (cf_map c) (cf_topo c) (cf_len c) (cf_mapped c) true (cf_of c ++ default_hood_of (cf_len c)) (Some cells)).

Definition configure (c : config) (s : setting) : bool * config :=
  match s with
  | Set_length l => set_initial_length c l
  | Set_level l => set_level c l
  | Set_periodic x y z => set_periodic c x y z
  | Set_neighborhood n => set_neighborhood_length c n
  | Initialize => initialize_grid c
  end.
(** exceptions are caught by the caller, who carries on *)
Fixpoint configure_all (c : config) (l : list setting) : config :=
  match l with [] => c | s :: l => configure_all (snd (configure c s)) l end.
End Config.

(** ** Hierarchical partitioning *)
Definition option_map_t := list (string * string).
(** std::unordered_map<std::string, std::string>: one entry for each name *)
Fixpoint lookup (name : string) (o : option_map_t) : option string :=
  match o with [] => None | (n, v) :: r => if String.eqb n name then Some v else lookup name r end.
Definition erase (name : string) (o : option_map_t) : option_map_t := filter (fun e => negb (String.eqb (fst e) name)) o.
Definition assign (name value : string) (o : option_map_t) : option_map_t := (name, value) :: erase name o.

(** processes_per_part and partitioning_options, dccrg.hpp:7431-7433 *)
Record partitioning := Partitioning { pt_procs : list Z; pt_options : list option_map_t }.
(** dccrg.hpp:7890-7897: filled by initialize_zoltan *)
Definition reserved_options : list string :=
  ["EDGE_WEIGHT_DIM"; "NUM_GID_ENTRIES"; "NUM_LID_ENTRIES"; "OBJ_WEIGHT_DIM"; "RETURN_LISTS";
   "NUM_GLOBAL_PARTS"; "NUM_LOCAL_PARTS"; "AUTO_MIGRATE"]%string.
Definition reserved (name : string) : bool := existsb (String.eqb name) reserved_options.
(** dccrg.hpp:5711-5713 *)
Definition default_options : option_map_t :=
  assign "PHG_CUT_OBJECTIVE" "CONNECTIVITY" (assign "LB_METHOD" "HYPERGRAPH" []).

Definition no_such_level (p : partitioning) (l : Z) : bool := (l <? 0) || (Z.of_nat (List.length (pt_procs p)) <=? l).
Definition remove_nth {A} (n : nat) (l : list A) : list A := firstn n l ++ skipn (S n) l.
Definition update_nth {A} (n : nat) (f : A -> A) (l : list A) : list A :=
  match nth_error l n with Some x => firstn n l ++ f x :: skipn (S n) l | None => l end.
(** dccrg.hpp:5688-5718; [false] is an exception *)
Definition add_partitioning_level (p : partitioning) (processes : Z) : bool * partitioning :=
  if processes <? 1 then (false, p)
  else (true, Partitioning (pt_procs p ++ [processes]) (pt_options p ++ [default_options])).
(** dccrg.hpp:5736-5763 *)
Definition remove_partitioning_level (p : partitioning) (l : Z) : partitioning :=
  if no_such_level p l then p
  else Partitioning (remove_nth (Z.to_nat l) (pt_procs p)) (remove_nth (Z.to_nat l) (pt_options p)).
(** dccrg.hpp:5785-5817 *)
Definition add_partitioning_option (p : partitioning) (l : Z) (name value : string) : bool * partitioning :=
  if no_such_level p l then (true, p)
  else if reserved name then (false, p)
  else (true, Partitioning (pt_procs p) (update_nth (Z.to_nat l) (assign name value) (pt_options p))).
(** dccrg.hpp:5834-5859 *)
Definition remove_partitioning_option (p : partitioning) (l : Z) (name : string) : partitioning :=
  if no_such_level p l then p
  else Partitioning (pt_procs p) (update_nth (Z.to_nat l) (erase name) (pt_options p)).
(** dccrg.hpp:5869-5898: names of options, in any order *)
Definition get_partitioning_options (p : partitioning) (l : Z) : list string :=
  if no_such_level p l then [] else map fst (nth (Z.to_nat l) (pt_options p) []).
(** dccrg.hpp:5908-5934 *)
Definition get_partitioning_option_value (p : partitioning) (l : Z) (name : string) : string :=
  if no_such_level p l then EmptyString
  else match lookup name (nth (Z.to_nat l) (pt_options p) []) with Some v => v | None => EmptyString end.

(** dccrg.hpp:12302, 12346-12349: the callbacks of Zoltan; [process / part] converts to unsigned
    int, which changes nothing for the ranks of MPI *)
Definition get_number_of_load_balancing_hierarchies (p : partitioning) : Z := Z.of_nat (List.length (pt_procs p)).
Fixpoint part_loop (procs : list Z) (level : nat) (process : Z) : Z :=
  match procs, level with
  | n :: _, O => process / n
  | n :: r, S k => part_loop r k (process mod n)
  | [], _ => -1
  end.
(** dccrg.hpp:12313-12356 *)
Definition get_part_number (p : partitioning) (rank level : Z) : Z :=
  if no_such_level p level then -1 else part_loop (pt_procs p) (Z.to_nat level) rank.
(** dccrg.hpp:12363-12412: the parameters given to Zoltan *)
Definition set_partitioning_options (p : partitioning) (level : Z) : option option_map_t :=
  if no_such_level p level then None else nth_error (pt_options p) (Z.to_nat level).

Inductive part_call :=
  | Add_level (processes : Z)
  | Remove_level (level : Z)
  | Add_option (level : Z) (name value : string)
  | Remove_option (level : Z) (name : string).
Definition part_step (p : partitioning) (c : part_call) : partitioning :=
  match c with
  | Add_level n => snd (add_partitioning_level p n)
  | Remove_level l => remove_partitioning_level p l
  | Add_option l n v => snd (add_partitioning_option p l n v)
  | Remove_option l n => remove_partitioning_option p l n
  end.
Definition part_run (p : partitioning) (l : list part_call) : partitioning := fold_left part_step l p.
Definition no_partitioning : partitioning := Partitioning [] [].
