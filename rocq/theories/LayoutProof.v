(** Compiling, printing and walking do not look at positions. *)
From Coq Require Import Lia.
From Verif Require Import Base Vnode Token Ast Export Nodes Places Join JsonProof Compiler Printer Walk WalkProof.

Definition oc_map {A B} (f : A -> B) (r : outcome A) : outcome B :=
  match r with Ok x => Ok (f x) | PErr e => PErr e | Panic k => Panic k | OutOfFuel => OutOfFuel end.

Section Moved.
Context (g : apos -> apos).
Let m := map_node g.

Lemma ox_map {A} (f : node -> A) d o : (forall x, o = Some x -> f (m x) = f x) ->
  match option_map m o with None => d | Some x => f x end = match o with None => d | Some x => f x end.
Proof. destruct o; cbn [option_map]; auto. Qed.
Lemma map_moved {A} (f : node -> A) l : (forall x, In x l -> f (m x) = f x) -> map f (map m l) = map f l.
Proof. intros H. rewrite map_map. apply map_ext_in. exact H. Qed.
Lemma nil_map {A B} (f : A -> B) l : is_nil (map f l) = is_nil l.
Proof. destruct l; reflexivity. Qed.

Lemma compile_expr_map n : compile_expr (m n) = compile_expr n.
Proof.
  induction n as [n IH] using fields_ind.
  assert (OP : forall d o, (forall x, In x (on o) -> In x (fields n)) ->
    match option_map m o with None => d | Some x => compile_expr x end = match o with None => d | Some x => compile_expr x end).
  { intros d o Ho. apply ox_map. intros x ->. apply IH, Ho. cbn; auto. }
  assert (LS : forall l, (forall x, In x l -> In x (fields n)) -> map compile_expr (map m l) = map compile_expr l).
  { intros l Hl. apply map_moved. auto. }
  assert (LF : forall (F : text -> text) l, (forall x, In x l -> In x (fields n)) -> map (fun f => F (compile_expr f)) (map m l) = map (fun f => F (compile_expr f)) l).
  { intros F l Hl. apply map_moved. intros x Hx. rewrite IH; auto. }
  destruct n; cbn [fields] in OP, LS, LF; unfold m in *; cbn [map_node]; cbn [compile_expr]; try reflexivity; rewrite ?nil_map;
    try (repeat (rewrite OP by (intros; rewrite ?in_app_iff; tauto)); repeat (rewrite LS by (intros; rewrite ?in_app_iff; tauto)); reflexivity).
  - destruct (is_nil entries); [reflexivity|]. f_equal. f_equal. f_equal.
    rewrite map_map. apply map_ext_in. intros [k v] Hx.
    rewrite !OP; [reflexivity| |]; intros y Hy; apply in_flat_map; eexists; (split; [exact Hx|]); cbn [fst snd]; apply in_or_app; auto.
  - rewrite (LF (fun t => [34] ++ t ++ [34])) by (intros; rewrite ?in_app_iff; tauto).
    rewrite (LF (fun t => [34] ++ escape t [10; 9; 13] ++ [34])) by (intros; rewrite ?in_app_iff; tauto). reflexivity.
Qed.
Lemma compile_oexpr_map o : compile_oexpr (option_map m o) = compile_oexpr o.
Proof. destruct o; cbn [option_map compile_oexpr]; auto using compile_expr_map. Qed.
Lemma exprs_map l : map compile_expr (map m l) = map compile_expr l.
Proof. apply map_moved. intros. apply compile_expr_map. Qed.
Lemma lhs_map l ls rs : compile_lhs (option_map m l) (map m ls) (option_map m rs) = compile_lhs l ls rs.
Proof. unfold compile_lhs. rewrite exprs_map. destruct l, rs; cbn [option_map]; rewrite ?compile_expr_map; reflexivity. Qed.
Lemma cmd_name_map e : cmd_name (map_exarg g e) = cmd_name e.
Proof. reflexivity. Qed.
Lemma ident_map n : ident_name (m n) = ident_name n.
Proof. destruct n; reflexivity. Qed.
Lemma params_map ps da : forall i np nd, param_texts i np nd ps (map m da) = param_texts i np nd ps da.
Proof.
  induction ps as [|p ps IH]; intros; cbn [param_texts]; [reflexivity|]. rewrite IH, nth_error_map.
  rewrite compile_oexpr_map. reflexivity.
Qed.
Lemma last_map ps : lastn_opt (map m ps) = option_map m (lastn_opt ps).
Proof.
  induction ps as [|x [|y l] IH]; [reflexivity..|]. cbn [map lastn_opt] in *. exact IH.
Qed.
Lemma ends_map ps : ends_dots (map m ps) = ends_dots ps.
Proof. unfold ends_dots. rewrite last_map. destruct (lastn_opt ps); cbn [option_map]; rewrite ?ident_map; reflexivity. Qed.
Lemma removelast_map {A B} (f : A -> B) l : removelast (map f l) = map f (removelast l).
Proof. induction l as [|x [|y l] IH]; [reflexivity..|]. cbn [map removelast] in *. f_equal. exact IH. Qed.
Lemma cut_map ps : cut_dots (map m ps) = map m (cut_dots ps).
Proof. unfold cut_dots. rewrite ends_map. destruct (ends_dots ps); auto using removelast_map. Qed.
Lemma names_map ps : map ident_name (map m ps) = map ident_name ps.
Proof. apply map_moved. intros. apply ident_map. Qed.

Definition onto (r : cres) : cres := match r with (b, e, x) => (b, e, m x) end.
Definition onto_list (r : text * bool * list node) : text * bool * list node := match r with (b, e, x) => (b, e, map m x) end.
Definition onto_body (r : text * list node) : text * list node := match r with (b, x) => (b, map m x) end.
Lemma list_map f l : (forall x b, In x l -> f (m x) b = oc_map onto (f x b)) ->
  forall b, compile_list f (map m l) b = oc_map onto_list (compile_list f l b).
Proof.
  induction l as [|x l IH]; intros H b; cbn [compile_list map]; [reflexivity|].
  rewrite (H x b) by (left; reflexivity). destruct (f x b) as [[[b' e] x']|e|k|]; cbn [bind oc_map onto]; [|reflexivity..].
  destruct e; [reflexivity|]. rewrite IH by (intros; apply H; right; assumption).
  destruct (compile_list f l b') as [[[b'' e'] l']|e'|k|]; reflexivity.
Qed.
Lemma parts_map f l : (forall x b, In x l -> f (m x) b = oc_map onto (f x b)) ->
  forall b, compile_parts f (map m l) b = oc_map onto_body (compile_parts f l b).
Proof.
  induction l as [|x l IH]; intros H b; cbn [compile_parts map]; [reflexivity|].
  rewrite (H x b) by (left; reflexivity). destruct (f x b) as [[[b' e] x']|e|k|]; cbn [bind oc_map onto]; [|reflexivity..].
  rewrite IH by (intros; apply H; right; assumption).
  destruct (compile_parts f l b') as [[b'' l']|e'|k|]; reflexivity.
Qed.


(** The body of a block, compiled one step deeper. *)
Definition comp_body (unit : text) (k : nat) (l : list node) (b : text) : outcome (text * list node) :=
  let* '(b', _, l') := compile_list (comp unit k) l b in Ok (b', l').
Lemma comp_map unit n : (forall ind buf, comp unit ind (m n) buf = oc_map onto (comp unit ind n buf)) /\
  (forall x, In x (fields n) -> forall ind buf, comp unit ind (m x) buf = oc_map onto (comp unit ind x buf)).
Proof.
  induction n as [n IH] using fields_ind.
  split; [|intros x Hx; exact (proj1 (IH x Hx))]. intros ind buf.
  assert (LS : forall k l b, (forall x, In x l -> In x (fields n)) ->
    compile_list (comp unit k) (map m l) b = oc_map onto_list (compile_list (comp unit k) l b)).
  { intros k l b H. apply list_map. intros x b' Hx. apply (proj1 (IH x (H x Hx))). }
  assert (L2 : forall c k l b, In c (fields n) -> (forall x, In x l -> In x (fields c)) ->
    compile_list (comp unit k) (map m l) b = oc_map onto_list (compile_list (comp unit k) l b)).
  { intros c k l b Hc H. apply list_map. intros x b' Hx. apply (proj2 (IH c Hc)). auto. }
  destruct n; unfold m; cbn [map_node]; fold m; cbn [comp]; unfold line_named;
    rewrite ?cmd_name_map, ?compile_oexpr_map, ?exprs_map, ?lhs_map;
    try reflexivity; try (destruct (cmd_name ea); reflexivity).
  (* expressions *)
  all: try (match goal with |- Ok (fprint _ _ (sprintf0 (compile_expr ?a)) _, _, _) = oc_map onto (Ok (fprint _ _ (sprintf0 (compile_expr ?b)) _, _, _)) =>
    change a with (m b); rewrite (compile_expr_map b); reflexivity end).
  all: cbn [fields] in LS, L2.
  - rewrite LS by auto. destruct (compile_list _ _ _) as [[[b e] l]|e|k|]; reflexivity.
  - rewrite LS by (intros; rewrite ?in_app_iff; tauto). rewrite nil_map, cut_map, names_map, ends_map, params_map, !map_length.
    destruct (compile_list _ _ _) as [[[b e] l]|e|k|]; reflexivity.
  - destruct result; cbn [option_map]; rewrite ?compile_expr_map; destruct (cmd_name ea); reflexivity.
  - destruct (cmd_name ea) as [cn|e|k|]; cbn [bind]; [|reflexivity..].
    rewrite LS by (intros; rewrite ?in_app_iff; tauto). destruct (compile_list _ _ _) as [[[b e] l]|e|k|]; cbn [bind oc_map onto_list]; [|reflexivity..].
    rewrite parts_map.
    2: { intros x b0 Hx. destruct x; try reflexivity. unfold m; cbn [map_node]; fold m. rewrite ?cmd_name_map, ?compile_oexpr_map.
      destruct (cmd_name _) as [cn'|e'|k|]; cbn [bind]; [|reflexivity..].
      erewrite L2; [|rewrite ?in_app_iff; right; right; left; exact Hx|cbn [fields]; intros; rewrite ?in_app_iff; tauto].
      destruct (compile_list _ _ _) as [[[b1 e1] l1]|e1|k|]; reflexivity. }
    destruct (compile_parts _ _ _) as [[b1 l1]|e1|k|]; cbn [bind oc_map onto_body]; [|reflexivity..].
    destruct else_ as [x|]; cbn [option_map]; [|reflexivity]. destruct x; try reflexivity. unfold m; cbn [map_node]; fold m. rewrite ?cmd_name_map.
    destruct (cmd_name _) as [cn'|e'|k|]; cbn [bind]; [|reflexivity..].
    erewrite L2; [|rewrite ?in_app_iff; right; right; right; left; left; reflexivity|cbn [fields]; intros; rewrite ?in_app_iff; tauto].
    destruct (compile_list _ _ _) as [[[b2 e2] l2]|e2|k|]; reflexivity.
  - destruct (cmd_name ea) as [cn|e|k|]; cbn [bind]; [|reflexivity..].
    rewrite LS by (intros; rewrite ?in_app_iff; tauto). destruct (compile_list _ _ _) as [[[b e] l]|e|k|]; reflexivity.
  - destruct (cmd_name ea) as [cn|e|k|]; cbn [bind]; [|reflexivity..].
    rewrite LS by (intros; rewrite ?in_app_iff; tauto). destruct (compile_list _ _ _) as [[[b e] l]|e|k|]; reflexivity.
  - destruct (cmd_name ea) as [cn|e|k|]; cbn [bind]; [|reflexivity..].
    rewrite LS by (intros; rewrite ?in_app_iff; tauto). destruct (compile_list _ _ _) as [[[b e] l]|e|k|]; cbn [bind oc_map onto_list]; [|reflexivity..].
    rewrite parts_map.
    2: { intros x b0 Hx. destruct x; try reflexivity. unfold m; cbn [map_node]; fold m. rewrite ?cmd_name_map.
      destruct (cmd_name _) as [cn'|e'|k|]; cbn [bind]; [|reflexivity..].
      erewrite L2; [|rewrite ?in_app_iff; right; left; exact Hx|cbn [fields]; intros; rewrite ?in_app_iff; tauto].
      destruct (compile_list _ _ _) as [[[b1 e1] l1]|e1|k|]; reflexivity. }
    destruct (compile_parts _ _ _) as [[b1 l1]|e1|k|]; cbn [bind oc_map onto_body]; [|reflexivity..].
    destruct finally as [x|]; cbn [option_map]; [|reflexivity]. destruct x; try reflexivity. unfold m; cbn [map_node]; fold m. rewrite ?cmd_name_map.
    destruct (cmd_name _) as [cn'|e'|k|]; cbn [bind]; [|reflexivity..].
    erewrite L2; [|rewrite ?in_app_iff; right; right; left; left; reflexivity|cbn [fields]; intros; rewrite ?in_app_iff; tauto].
    destruct (compile_list _ _ _) as [[[b2 e2] l2]|e2|k|]; reflexivity.
Qed.

Lemma compile_map unit n : compile_with unit (m n) = oc_map (fun c => mkCompiled (c_out c) (c_err c) (m (c_node c))) (compile_with unit n).
Proof.
  unfold compile_with. rewrite (proj1 (comp_map unit n)). destruct (comp unit 0 n []) as [[[b e] x]|e|k|]; reflexivity.
Qed.

Lemma opprec_map n : opprec (m n) = opprec n.
Proof. destruct n; reflexivity. Qed.
Lemma print_map n : forall k, print_expr (m n) k = print_expr n k.
Proof.
  induction n as [n IH] using fields_ind. intros k.
  assert (OP : forall o k, (forall x, In x (on o) -> In x (fields n)) ->
    match option_map m o with None => Panic PUnknownToken | Some x => print_expr x k end = match o with None => Panic PUnknownToken | Some x => print_expr x k end).
  { intros [x|] k' Ho; cbn [option_map]; [|reflexivity]. apply IH, Ho. cbn; auto. }
  destruct n; try reflexivity; cbn [fields] in OP; unfold m in *; cbn [map_node print_expr opprec];
    try (repeat (rewrite OP by (intros; rewrite ?in_app_iff; tauto)); reflexivity).
  - destruct (binprec op); cbn [bind]; [|reflexivity]. repeat (rewrite OP by (intros; rewrite ?in_app_iff; tauto)); reflexivity.
  - destruct op; cbn [bind]; try reflexivity; repeat (rewrite OP by (intros; rewrite ?in_app_iff; tauto)); reflexivity.
  - cbn [bind]. repeat (rewrite OP by (intros; rewrite ?in_app_iff; tauto)); reflexivity.
  - rewrite OP by auto. destruct x as [[]|]; reflexivity.
Qed.
Lemma fprint_map n : Fprint (m n) = Fprint n.
Proof. unfold Fprint. rewrite print_map. destruct n; reflexivity. Qed.

Lemma olist_map {A B} (f : A -> B) o : olist (option_map f o) = map f (olist o).
Proof. destruct o; reflexivity. Qed.
Lemma children_map n : walk_children (m n) = map m (walk_children n).
Proof.
  destruct n; unfold m; cbn [map_node walk_children]; rewrite ?map_app, ?olist_map; try reflexivity.
  induction entries as [|[k v] l IH]; cbn [map flat_map fst snd]; [reflexivity|]. rewrite IH, !map_app, !olist_map. reflexivity.
Qed.
(** Walking the moved tree with a visitor is walking the tree with the visitor that is shown the moved nodes. *)
Lemma walk_map {V S} (visit : V -> option node -> S -> option V * S) : forall k v n s,
  walk visit k v (m n) s = walk (fun v o s => visit v (option_map m o) s) k v n s.
Proof.
  induction k as [|k IH]; intros v n s; cbn [walk]; [reflexivity|]. cbn [option_map].
  destruct (visit v (Some (m n)) s) as [[w|] s']; [|reflexivity]. rewrite children_map.
  assert (L : forall l s, walk_list (walk visit k w) (map m l) s = walk_list (walk (fun v o s => visit v (option_map m o) s) k w) l s).
  { induction l as [|x l IHl]; intros s0; cbn [walk_list map]; [reflexivity|]. rewrite IH. destruct (walk _ k w x s0); auto. }
  rewrite L. reflexivity.
Qed.
End Moved.
