(** C82: which options Zoltan has.  Model of set_load_balancing_method, initialize_zoltan, set_partitioning_option
    and of their part in the copy constructor of /repo/dccrg.hpp, and its properties. *)
From Coq Require Import String Ascii.
From Verif Require Import U64 ConfigModel.
Open Scope Z_scope.

(** ** Zoltan's own list of parameters *)
(** Outside of /repo: Zoltan's documentation says that neither names nor values are case sensitive; names are
    compared here in upper case, values are kept as given. *)
Definition upper1 (a : ascii) : ascii := let n := nat_of_ascii a in if (Nat.leb 97 n && Nat.leb n 122)%bool then ascii_of_nat (n - 32) else a.
Fixpoint upper (s : string) : string := match s with EmptyString => EmptyString | String a r => String (upper1 a) (upper r) end.
Definition params : Type := list (string * string).
Definition set_param (z : params) (name value : string) : params := (upper name, value) :: z.
Definition param (z : params) (name : string) : option string := option_map snd (List.find (fun e => String.eqb (fst e) (upper name)) z).

(** ** Members of a grid *)
(** load_balancing_method (dccrg.hpp:7251), zoltan (None before initialize(): the pointer is not set), no_load_balancing (7436, not
    set before initialize()), reserved_options (7440) *)
Record balancer := Balancer { b_method : string; b_zoltan : option params; b_none : option bool; b_reserved : list string }.
Definition new_balancer : balancer := Balancer "RCB" None None [].
Inductive answer := Fine | Threw_invalid | Undefined.
(** dccrg.hpp:8388-8412 *)
Definition set_load_balancing_method (b : balancer) (s : string) : balancer := Balancer s (b_zoltan b) (b_none b) (b_reserved b).
(** dccrg.hpp:8414-8416 *)
Definition get_load_balancing_method (b : balancer) : string := b_method b.
(** dccrg.hpp:7867-7914: no_load_balancing, reserved options, other options; the callbacks are left out *)
Definition initialize_zoltan (b : balancer) : balancer :=
  let z := fold_left (fun z e => set_param z (fst e) (snd e))
    [("EDGE_WEIGHT_DIM", "0"); ("NUM_GID_ENTRIES", "1"); ("NUM_LID_ENTRIES", "0"); ("OBJ_WEIGHT_DIM", "1"); ("RETURN_LISTS", "ALL");
     ("DEBUG_LEVEL", "0"); ("HIER_DEBUG_LEVEL", "0"); ("HIER_CHECKS", "0"); ("LB_METHOD", b_method b); ("REMAP", "1")]%string [] in
  Balancer (b_method b) (Some z) (Some (String.eqb (b_method b) "NONE")) (b_reserved b ++ reserved_options).
(** dccrg.hpp:5636-5665 *)
Definition set_partitioning_option (b : balancer) (name value : string) : answer * balancer :=
  if existsb (String.eqb name) (b_reserved b) then (Threw_invalid, b)
  else match b_zoltan b with
  | None => (Undefined, b)
  | Some z => (Fine, Balancer (b_method b) (Some (set_param z name value)) (b_none b) (b_reserved b))
  end.
(** dccrg.hpp:390-391, 420: load_balancing_method is not in the list of the copy constructor *)
Definition copy_balancer (b : balancer) : answer * balancer :=
  match b_zoltan b with
  | None => (Undefined, b)
  | Some z => (Fine, Balancer "RCB" (Some z) (b_none b) (b_reserved b))
  end.
Inductive bcall := Set_method (s : string) | Initialize | Set_option (name value : string) | Copy.
(** initialize() throws when it has been called before: dccrg.hpp:491-496 *)
Definition bstep (b : balancer) (c : bcall) : answer * balancer :=
  match c with
  | Set_method s => (Fine, set_load_balancing_method b s)
  | Initialize => match b_zoltan b with Some _ => (Threw_invalid, b) | None => (Fine, initialize_zoltan b) end
  | Set_option n v => set_partitioning_option b n v
  | Copy => copy_balancer b
  end.
Definition brun (b : balancer) (l : list bcall) : balancer := fold_left (fun b c => snd (bstep b c)) l b.

(** ** Properties *)
(** names that dccrg keeps for itself, as listed at dccrg.hpp:7890-7897 *)
Theorem c59_reserved_names name : reserved name = true <->
  In name ["EDGE_WEIGHT_DIM"; "NUM_GID_ENTRIES"; "NUM_LID_ENTRIES"; "OBJ_WEIGHT_DIM"; "RETURN_LISTS"; "NUM_GLOBAL_PARTS"; "NUM_LOCAL_PARTS"; "AUTO_MIGRATE"]%string.
Proof.
  unfold reserved. rewrite existsb_exists. split.
  - intros (n & I & E). apply String.eqb_eq in E. subst n. exact I.
  - intros I. exists name. split; [exact I|apply String.eqb_refl].
Qed.

(** what calls ask for *)
Definition methods (l : list bcall) : string := fold_left (fun s c => match c with Set_method s' => s' | _ => s end) l "RCB"%string.
Definition only_methods (l : list bcall) : Prop := forall c, In c l -> exists s, c = Set_method s.
(** the value last given to an option that is not reserved, names without regard to case *)
Fixpoint last_given (name : string) (l : list bcall) : option string :=
  match l with
  | [] => None
  | c :: r => match last_given name r with
    | Some v => Some v
    | None => match c with Set_option n v => if negb (reserved n) && String.eqb (upper n) (upper name) then Some v else None | _ => None end
    end
  end.
(** what initialize() gives *)
Definition first_value (method name : string) : option string :=
  let n := upper name in
  if String.eqb n "LB_METHOD" then Some method
  else if existsb (String.eqb n) ["EDGE_WEIGHT_DIM"; "NUM_LID_ENTRIES"; "DEBUG_LEVEL"; "HIER_DEBUG_LEVEL"; "HIER_CHECKS"]%string then Some "0"%string
  else if existsb (String.eqb n) ["NUM_GID_ENTRIES"; "OBJ_WEIGHT_DIM"; "REMAP"]%string then Some "1"%string
  else if String.eqb n "RETURN_LISTS" then Some "ALL"%string else None.

Lemma before_run l : only_methods l -> brun new_balancer l = Balancer (methods l) None None [].
Proof.
  intros H. unfold brun, methods. assert (forall b s, b = Balancer s None None [] -> fold_left (fun b c => snd (bstep b c)) l b = Balancer (fold_left (fun s c => match c with Set_method s' => s' | _ => s end) l s) None None []) as G.
  { induction l as [|c l IH]; intros b s ->; cbn [fold_left]; [reflexivity|]. destruct (H c (or_introl eq_refl)) as (s' & ->). apply IH; [|reflexivity]. intros c' I. apply H. right. assumption. }
  apply G. reflexivity.
Qed.
Lemma upper_idem s : upper (upper s) = upper s.
Proof.
  induction s as [|a s IH]; cbn [upper]; [reflexivity|]. rewrite IH. f_equal. destruct a as [[] [] [] [] [] [] [] []]; vm_compute; reflexivity.
Qed.
Lemma first_param method name : param (fold_left (fun z e => set_param z (fst e) (snd e))
    [("EDGE_WEIGHT_DIM", "0"); ("NUM_GID_ENTRIES", "1"); ("NUM_LID_ENTRIES", "0"); ("OBJ_WEIGHT_DIM", "1"); ("RETURN_LISTS", "ALL");
     ("DEBUG_LEVEL", "0"); ("HIER_DEBUG_LEVEL", "0"); ("HIER_CHECKS", "0"); ("LB_METHOD", method); ("REMAP", "1")]%string []) name = first_value method name.
Proof.
  unfold param, first_value, set_param. cbn [fold_left fst snd List.find existsb]. generalize (upper name). intros n.
  repeat match goal with |- context [upper ?s] => let t := eval vm_compute in (upper s) in change (upper s) with t end.
  repeat (match goal with |- context [String.eqb ?a n] => rewrite (String.eqb_sym a n) end).
  repeat (match goal with |- context [String.eqb n ?a] => destruct (String.eqb_spec n a) as [->|]; [vm_compute; reflexivity|] end). reflexivity.
Qed.
Lemma after_run l : forall b z, b_zoltan b = Some z -> b_reserved b = reserved_options ->
  let b' := brun b l in exists z', b_zoltan b' = Some z' /\ b_none b' = b_none b /\ b_reserved b' = reserved_options /\
  b_method b' = fold_left (fun s c => match c with Set_method s' => s' | Copy => "RCB"%string | _ => s end) l (b_method b) /\
  forall name, param z' name = match last_given name l with Some v => Some v | None => param z name end.
Proof.
  induction l as [|c l IH]; intros b z Ez Er; cbn [brun fold_left last_given]; [exists z; auto|].
  assert (exists z1, b_zoltan (snd (bstep b c)) = Some z1 /\ b_none (snd (bstep b c)) = b_none b /\ b_reserved (snd (bstep b c)) = reserved_options /\
    b_method (snd (bstep b c)) = (match c with Set_method s' => s' | Copy => "RCB"%string | _ => b_method b end) /\
    forall name, param z1 name = match c with Set_option n v => if negb (reserved n) && String.eqb (upper n) (upper name) then Some v else param z name | _ => param z name end) as (z1 & A & B & C & D & E).
  { destruct c as [s| |n v|]; cbn [bstep].
    - exists z. cbn. auto.
    - rewrite Ez. exists z. cbn. auto.
    - unfold set_partitioning_option. rewrite Er, Ez. change (existsb (String.eqb n) reserved_options) with (reserved n). destruct (reserved n); cbn [negb andb snd].
      + exists z. auto.
      + exists (set_param z n v). cbn [b_zoltan b_none b_reserved b_method]. split; [reflexivity|]. split; [reflexivity|]. split; [first [assumption|reflexivity]|]. split; [reflexivity|]. intros name. unfold param, set_param. cbn [List.find fst snd]. destruct (String.eqb (upper n) (upper name)); reflexivity.
    - unfold copy_balancer. rewrite Ez. cbn. exists z. auto. }
  destruct (IH (snd (bstep b c)) z1 A C) as (z' & A' & B' & C' & D' & E'). cbn zeta in *. unfold brun in *. exists z'. split; [assumption|]. split; [congruence|]. split; [assumption|]. split; [rewrite D', D; reflexivity|].
  intros name. rewrite E'. destruct (last_given name l); [reflexivity|]. rewrite E. destruct c as [s| |n v|]; try reflexivity. destruct (negb (reserved n) && String.eqb (upper n) (upper name)); reflexivity.
Qed.
(** After initialize(), whatever is called before and after it: every option has the value last accepted for it by
    set_partitioning_option and otherwise that of initialize(), with the method last set before initialize(); methods set later have
    no effect on Zoltan; no_load_balancing never changes *)
Theorem c82_options before after : only_methods before -> let b := brun new_balancer (before ++ Initialize :: after) in
  exists z, b_zoltan b = Some z /\ b_none b = Some (String.eqb (methods before) "NONE") /\
  (forall name, param z name = match last_given name after with Some v => Some v | None => first_value (methods before) name end) /\
  get_load_balancing_method b = fold_left (fun s c => match c with Set_method s' => s' | Copy => "RCB"%string | _ => s end) after (methods before).
Proof.
  intros H. unfold brun. rewrite fold_left_app. cbn [fold_left]. fold (brun new_balancer before). rewrite (before_run before H). cbn [bstep b_zoltan snd].
  destruct (after_run after (initialize_zoltan (Balancer (methods before) None None [])) _ eq_refl eq_refl) as (z & A & B & _ & D & E). cbn zeta in *. unfold brun in *. exists z. split; [assumption|]. split; [rewrite B; reflexivity|]. split; [|exact D].
  intros name. rewrite E. destruct (last_given name after); [reflexivity|]. apply first_param.
Qed.
(** Options that dccrg needs keep the value of initialize() if names are given in upper case. *)
Theorem c82_needed_options_kept before after : only_methods before -> (forall n v, In (Set_option n v) after -> upper n = n) -> let b := brun new_balancer (before ++ Initialize :: after) in
  exists z, b_zoltan b = Some z /\ param z "EDGE_WEIGHT_DIM" = Some "0"%string /\ param z "NUM_GID_ENTRIES" = Some "1"%string /\ param z "NUM_LID_ENTRIES" = Some "0"%string /\
  param z "OBJ_WEIGHT_DIM" = Some "1"%string /\ param z "RETURN_LISTS" = Some "ALL"%string /\ param z "NUM_GLOBAL_PARTS" = None /\ param z "NUM_LOCAL_PARTS" = None /\ param z "AUTO_MIGRATE" = None.
Proof.
  intros H U. destruct (c82_options before after H) as (z & A & _ & P & _). exists z. split; [assumption|].
  assert (forall name, reserved name = true -> upper name = name -> param z name = first_value (methods before) name) as K.
  { intros name R Un. rewrite P. replace (last_given name after) with (@None string); [reflexivity|]. symmetry. clear - R Un U. induction after as [|c l IH]; cbn [last_given]; [reflexivity|]. rewrite IH by (intros n v I; apply (U n v); right; assumption).
    destruct c as [s| |n v|]; try reflexivity. destruct (String.eqb_spec (upper n) (upper name)) as [E|]; [|rewrite andb_false_r; reflexivity]. rewrite (U n v (or_introl eq_refl)), Un in E. subst n. rewrite R. reflexivity. }
  rewrite !K by (vm_compute; reflexivity). vm_compute. auto 20.
Qed.
(** the callers are told *)
Theorem c82_refused before after n v : only_methods before -> let b := brun new_balancer (before ++ Initialize :: after) in
  (reserved n = true -> set_partitioning_option b n v = (Threw_invalid, b)) /\ (reserved n = false -> fst (set_partitioning_option b n v) = Fine).
Proof.
  intros H b. unfold b, brun. rewrite fold_left_app. cbn [fold_left]. fold (brun new_balancer before). rewrite (before_run before H). cbn [bstep b_zoltan snd].
  destruct (after_run after (initialize_zoltan (Balancer (methods before) None None [])) _ eq_refl eq_refl) as (z & A & _ & C & _). cbn zeta in *. unfold brun in *. unfold set_partitioning_option. rewrite C, A. change (existsb (String.eqb n) reserved_options) with (reserved n). split; intros ->; reflexivity.
Qed.
Example c82_example : let b := brun new_balancer [Set_method "RIB"; Set_method "HYPERGRAPH"; Initialize; Set_method "NONE"; Set_option "LB_METHOD" "HIER"; Set_option "RETURN_LISTS" "NONE"; Set_option "hier_checks" "1"; Initialize; Copy] in
  match b_zoltan b with Some z => map (param z) ["LB_METHOD"; "RETURN_LISTS"; "HIER_CHECKS"; "REMAP"; "PHG_X"]%string | None => [] end = [Some "HIER"; Some "ALL"; Some "1"; Some "1"; None]%string /\ b_none b = Some false /\ get_load_balancing_method b = "RCB"%string.
Proof. vm_compute. auto. Qed.

(** ** What does not hold *)
(** "reserved options that the user cannot change" (dccrg.hpp:7889): they can, in lower case *)
Theorem c82_reserved_cannot_change_refuted : ~ (forall after, exists z, b_zoltan (brun new_balancer (Initialize :: after)) = Some z /\ param z "RETURN_LISTS" = Some "ALL"%string).
Proof. intros H. destruct (H [Set_option "return_lists" "NONE"]) as (z & A & B). vm_compute in A. injection A as <-. vm_compute in B. discriminate. Qed.
(** "Does nothing if option name is one of" (dccrg.hpp:5625): it throws *)
Theorem c82_does_nothing_refuted : ~ (forall b n v, In n ["RETURN_LISTS"; "EDGE_WEIGHT_DIM"; "NUM_GID_ENTRIES"; "OBJ_WEIGHT_DIM"]%string -> b_zoltan b <> None -> fst (set_partitioning_option b n v) = Fine).
Proof. intros H. specialize (H (brun new_balancer [Initialize]) "RETURN_LISTS"%string "NONE"%string). vm_compute in H. discriminate H; [auto|discriminate]. Qed.
(** get_load_balancing_method does not tell the method that Zoltan uses: set_partitioning_option and copying leave it behind *)
Theorem c82_told_method_refuted : ~ (forall after, ~ (exists s, In (Set_method s) after) -> exists z, b_zoltan (brun new_balancer (Initialize :: after)) = Some z /\ param z "LB_METHOD" = Some (get_load_balancing_method (brun new_balancer (Initialize :: after)))).
Proof.
  intros H. destruct (H [Set_option "LB_METHOD" "HIER"]) as (z & A & B); [intros (s & [E|[]]); discriminate|]. vm_compute in A. injection A as <-. vm_compute in B. discriminate.
Qed.
(** a copy of a grid without load balancing says it uses RCB *)
Theorem c82_copied_method_refuted : ~ (forall b, b_zoltan b <> None -> get_load_balancing_method (snd (copy_balancer b)) = get_load_balancing_method b).
Proof. intros H. specialize (H (brun new_balancer [Set_method "NONE"; Initialize])). vm_compute in H. discriminate H. discriminate. Qed.
(** a grid that was initialized with a method, and is switched off by set_partitioning_option, still treats it as an error when Zoltan
    does no balancing: no_load_balancing is only set by initialize() *)
Theorem c82_switched_off_refuted : ~ (forall after, match b_zoltan (brun new_balancer (Initialize :: after)) with Some z => param z "LB_METHOD" = Some "NONE"%string -> b_none (brun new_balancer (Initialize :: after)) = Some true | None => True end).
Proof. intros H. specialize (H [Set_option "LB_METHOD" "NONE"]). vm_compute in H. discriminate H. reflexivity. Qed.
