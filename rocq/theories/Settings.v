(** Model of common/settings_manager.h and settings_manager.inl over boost::property_tree (the parts used: put, get,
    find, get_child, put_child). Reading an XML file is not modelled (the resulting tree is arbitrary). *)
From Coq Require Import Ascii.
From Verif Require Import Base.
Local Open Scope list_scope.

Definition txt : Type := list ascii.
Definition ch_dot : ascii := "."%char.
Definition ch_eq : ascii := "="%char.
Definition ch_dash : ascii := "-"%char.

Fixpoint txt_eqb (a b : txt) : bool :=
  match a, b with
  | [], [] => true
  | x :: r, y :: s => if Ascii.eqb x y then txt_eqb r s else false
  | _, _ => false
  end.

(** boost::property_tree::ptree: data and an ordered list of (key, subtree), keys not necessarily distinct. *)
Inductive ptree : Type := PNode (data : txt) (children : list (txt * ptree)).
Definition p_data (t : ptree) : txt := match t with PNode d _ => d end.
Definition p_children (t : ptree) : list (txt * ptree) := match t with PNode _ c => c end.
Definition p_empty : ptree := PNode [] [].

(** ptree::find: the first child with the key. *)
Fixpoint p_find (k : txt) (cs : list (txt * ptree)) : option ptree :=
  match cs with
  | [] => None
  | (k', t) :: r => if txt_eqb k k' then Some t else p_find k r
  end.
(** assignment through an iterator returned by find *)
Fixpoint p_set (k : txt) (t : ptree) (cs : list (txt * ptree)) : list (txt * ptree) :=
  match cs with
  | [] => []
  | (k', t') :: r => if txt_eqb k k' then (k', t) :: r else (k', t') :: p_set k t r
  end.

(** boost string_path: the fragments delivered by reduce() until empty(): split at dots, without a last empty part. *)
Fixpoint split_dots (t : txt) : list txt :=
  match t with
  | [] => [[]]
  | c :: r => if Ascii.eqb c ch_dot then [] :: split_dots r
              else match split_dots r with p :: ps => (c :: p) :: ps | [] => [[c]] end
  end.
Fixpoint drop_last_empty (ps : list txt) : list txt :=
  match ps with
  | [] => []
  | [[]] => []
  | p :: r => p :: drop_last_empty r
  end.
Definition fragments (path : txt) : list txt := drop_last_empty (split_dots path).
Definition ends_with_dot (path : txt) : bool := match rev path with c :: _ => Ascii.eqb c ch_dot | [] => false end.

(** walk_path: the node at a path. *)
Fixpoint p_walk (t : ptree) (fs : list txt) : option ptree :=
  match fs with
  | [] => Some t
  | k :: r => match p_find k (p_children t) with Some c => p_walk c r | None => None end
  end.
(** replace the node at a path, creating what is missing (force_path followed by find or push_back, [upd] applied to the
    node, which is empty when it did not exist). *)
Fixpoint p_update (t : ptree) (fs : list txt) (upd : ptree -> ptree) : ptree :=
  match fs with
  | [] => upd t
  | k :: r =>
      match p_find k (p_children t) with
      | Some c => PNode (p_data t) (p_set k (p_update c r upd) (p_children t))
      | None => PNode (p_data t) (p_children t ++ [(k, p_update p_empty r upd)])
      end
  end.

(** ptree::put(path, value): set the data of the node at the path, creating it if necessary. Creating a node needs a path
    that does not end with a separator (BOOST_ASSERT in force_path). *)
Definition p_put (t : ptree) (path value : txt) : outcome ptree :=
  match p_walk t (fragments path) with
  | None => if ends_with_dot path then UB AssertFailed
            else Ok (p_update t (fragments path) (fun n => PNode value (p_children n)))
  | Some _ => Ok (p_update t (fragments path) (fun n => PNode value (p_children n)))
  end.

(** std::string::substr(0, find("=")) and substr(find("=") + 1); find returns npos when there is no '=', and npos + 1 is 0. *)
Fixpoint before_eq (t : txt) : txt :=
  match t with [] => [] | c :: r => if Ascii.eqb c ch_eq then [] else c :: before_eq r end.
Fixpoint after_eq (t : txt) : option txt :=
  match t with [] => None | c :: r => if Ascii.eqb c ch_eq then Some r else after_eq r end.

(** settings_manager.h:68-84 ParseCommandLine. *)
Fixpoint parse_command_line (t : ptree) (args : list txt) : outcome ptree :=
  match args with
  | [] => Ok t
  | a :: r =>
      match a with
      | c1 :: c2 :: argument =>
          if Ascii.eqb c1 ch_dash && Ascii.eqb c2 ch_dash then
            let! t' := p_put t (before_eq argument) (match after_eq argument with Some v => v | None => argument end) in
            parse_command_line t' r
          else parse_command_line t r
      | _ => parse_command_line t r
      end
  end.

(** settings_manager.inl:9-21 get (mandatory). [conv] is the stream translator of the property type. *)
Definition s_get {T} (conv : txt -> option T) (t : ptree) (name : txt) : outcome T :=
  match p_walk t (fragments name) with
  | Some n => match conv (p_data n) with Some v => Ok v | None => Throw RuntimeError end
  | None => Throw RuntimeError
  end.
(** settings_manager.inl:23-33 get with a default. *)
Definition s_get_or {T} (conv : txt -> option T) (t : ptree) (name : txt) (default : T) : T :=
  match p_walk t (fragments name) with
  | Some n => match conv (p_data n) with Some v => v | None => default end
  | None => default
  end.
(** settings_manager.inl:35-46 put, for a value whose text is [value]. *)
Definition s_put (t : ptree) (name value : txt) : outcome (ptree * bool) := let! t' := p_put t name value in Ok (t', true).

(** settings_manager.h:104-122 Merge. The key is used as a path by get_child and put_child: get_child of a missing path
    throws ptree_bad_path (a runtime_error). *)
Fixpoint p_merge (right : ptree) (left : ptree) {struct right} : outcome ptree :=
  match right with
  | PNode _ cs =>
      (fix go (cs : list (txt * ptree)) (merged : ptree) {struct cs} : outcome ptree :=
         match cs with
         | [] => Ok merged
         | (k, c) :: r =>
             let! merged' :=
               match p_find k (p_children merged) with
               | Some found =>
                   let! m := p_merge c found in
                   match p_walk merged (fragments k) with
                   | Some _ => Ok (p_update merged (fragments k) (fun _ => m))
                   | None => Throw RuntimeError
                   end
               | None => match fragments k with
                         | [] => UB AssertFailed
                         | _ => if ends_with_dot k then UB AssertFailed
                                else Ok (p_update merged (fragments k) (fun _ => c))
                         end
               end in
             go r merged'
         end) cs left
  end.
