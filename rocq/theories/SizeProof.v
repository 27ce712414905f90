(** A tree has at most twice as many nodes as its text has characters and line ends. *)
From Coq Require Import Lia ZifyBool ZifyNat ZifyN.
From Verif Require Import Base CharClass Reader Vnode Token CmdTable Cursor Grammar Script TokSafe ExprSafe CmdOpen Ast Export Nodes WalkProof Visits.

(** ** The trees of the parser *)
Local Open Scope nat_scope.
Fixpoint vsize (v : vnode) : nat :=
  let o := fun x => match x with Some y => vsize y | None => 0%nat end in
  let s := fun l => list_sum (map vsize l) in
  S (match v with
  | VTernary _ a b c => vsize a + vsize b + vsize c
  | VBin _ _ a b => vsize a + vsize b
  | VUn _ _ a => vsize a
  | VSubscript _ a b => vsize a + vsize b
  | VSlice _ a b c => vsize a + o b + o c
  | VMethod _ a b => vsize a + vsize b
  | VCall _ a l => vsize a + s l
  | VDot _ a b => vsize a + vsize b
  | VLit _ _ _ | VIdent _ _ | VCurlyPart _ _ | VComment _ _ | VExcmd _ _ _ | VEndfunction _ _ | VEndif _ _
  | VEndwhile _ _ | VEndfor _ _ | VContinue _ _ | VBreak _ _ | VEndtry _ _ | VEchohl _ _ _ => 0
  | VList _ l | VCurlyName _ l => s l
  | VDict _ l => list_sum (map (fun kv => match kv with (k, w) => vsize k + vsize w end) l)
  | VCurlyExpr _ a | VParen _ a => vsize a
  | VLambda _ l a => s l + vsize a
  | VHeredoc _ l _ b => s l + s b
  | VToplevel _ l => s l
  | VFunction _ _ b l r d _ e => s b + vsize l + s r + s d + o e
  | VDelfunction _ _ a => vsize a
  | VReturn _ _ a => o a
  | VExcall _ _ a => vsize a
  | VLet _ _ _ a l b c | VConst _ _ _ a l b c => o a + s l + o b + o c
  | VUnlet _ _ l | VLockvar _ _ _ l | VUnlockvar _ _ _ l => s l
  | VIf _ _ b c l x y => s b + vsize c + s l + o x + o y
  | VElseif _ _ b c => s b + vsize c
  | VElse _ _ b => s b
  | VWhile _ _ b c x => s b + vsize c + o x
  | VFor _ _ b a l x c y => s b + o a + s l + o x + vsize c + o y
  | VTry _ _ b l x y => s b + s l + o x + o y
  | VCatch _ _ b _ => s b
  | VFinally _ _ b => s b
  | VThrow _ _ a | VEval _ _ a => vsize a
  | VEcho _ _ _ l | VExecute _ _ l => s l
  end).
Definition vsizes (l : list vnode) : nat := list_sum (map vsize l).
Definition osize (x : option vnode) : nat := match x with Some y => vsize y | None => 0%nat end.
Definition esizes (l : list (vnode * vnode)) : nat := list_sum (map (fun kv => match kv with (k, w) => vsize k + vsize w end) l)%nat.
Lemma vsizes_app a b : vsizes (a ++ b) = (vsizes a + vsizes b)%nat.
Proof. unfold vsizes. rewrite map_app, list_sum_app. reflexivity. Qed.
Lemma vsizes_cons a b : vsizes (a :: b) = (vsize a + vsizes b)%nat.
Proof. reflexivity. Qed.
Lemma vsizes_nil : vsizes [] = 0%nat.
Proof. reflexivity. Qed.
Lemma esizes_cons k v b : esizes ((k, v) :: b) = (vsize k + vsize v + esizes b)%nat.
Proof. reflexivity. Qed.
Lemma esizes_nil : esizes [] = 0%nat.
Proof. reflexivity. Qed.
Lemma vsize_pos v : (1 <= vsize v)%nat.
Proof. destruct v; cbn [vsize]; lia. Qed.

Ltac vs1 := cbn [vsize]; change (fun l => list_sum (map vsize l)) with vsizes;
  fold esizes; fold vsizes; fold osize;
  repeat match goal with
  | |- context [list_sum (map vsize ?l)] => change (list_sum (map vsize l)) with (vsizes l)
  | |- context [list_sum (map (fun kv => match kv with (k, w) => (vsize k + vsize w)%nat end) ?l)] =>
      change (list_sum (map (fun kv => match kv with (k, w) => (vsize k + vsize w)%nat end) l)) with (esizes l)
  | |- context [match ?x with Some y => vsize y | None => 0%nat end] =>
      change (match x with Some y => vsize y | None => 0%nat end) with (osize x)
  end;
  rewrite ?vsizes_app, ?vsizes_cons, ?vsizes_nil, ?esizes_cons, ?esizes_nil; cbn [osize length].
Ltac vs := vs1; vs1.

(** [fits k c c' n]: the text from [c] to [c'] has room for [n] nodes, with [k] to spare. *)
Definition fits (k : nat) (c c' : cursor) (n : nat) : Prop := (n + k + 2 * clen c' <= 2 * clen c)%nat.

Ltac lens := repeat match goal with
  | H : tok_at ?k ?c ?p ?c' |- _ => let X := fresh in pose proof (tok_at_clen _ _ _ _ H) as X; clear H
  | H : token_at ?c ?t ?c' |- _ => let X := fresh in pose proof (token_tok_at _ _ _ H) as X; clear H
  | H : blank ?c ?d |- _ => apply blank_clen in H
  | H : spells ?s ?c ?d |- _ => apply spells_clen in H
  end.
Ltac go := unfold fits in *; vs;
  repeat match goal with H : ?a -> (clen _ < clen _)%nat |- _ => specialize (H ltac:(congruence)) end; cbn [length app] in *; try lia.

Lemma some_len f s : some_of f s -> (1 <= length s)%nat.
Proof. intros [H _]. destruct s; [congruence|cbn [length]; lia]. Qed.
Lemma simple_not_eof k l : simple_lit k = Some l -> k <> KEof.
Proof. intros H ->. discriminate. Qed.
Lemma prefix_not_eof k l : prefix_op k = Some l -> k <> KEof.
Proof. intros H ->. discriminate. Qed.
Lemma level_not_eof n k l : level_op n k = Some l -> k <> KEof.
Proof. intros H ->. do 7 (destruct n as [|n]; try discriminate). Qed.
Lemma open_not_eof (b : bool) : (if b then KLitCOpen else KCOpen) <> KEof.
Proof. destruct b; discriminate. Qed.
Lemma sid_len s : is_sid s -> (1 <= length s)%nat.
Proof. intros H. destruct s; [vm_compute in H; discriminate|cbn [length]; lia]. Qed.
Lemma name_len s : name_text s -> (1 <= length s)%nat.
Proof. intros [(r & w & -> & _)|H]; [cbn [length]; lia|apply sid_len, H]. Qed.
Lemma string_len s : string_text s -> (1 <= length s)%nat.
Proof. intros [(b & _ & ->)|(b & _ & ->)]; cbn; lia. Qed.

Lemma dparams_fits c ps c' : dparams c ps c' -> fits 1 c c' (vsizes ps).
Proof.
  induction 1; lens.
  - go.
  - rewrite H0 in *. go.
  - rewrite H0 in *. go.
  - rewrite H0 in *. go.
Qed.

Lemma expr_fits :
  (forall l c v c', dexpr l c v c' -> fits 0 c c' (vsize v)) /\
  (forall c o c', dopt c o c' -> fits 0 c c' (osize o)) /\
  (forall k c vs c', dlist k c vs c' -> k <> KEof -> fits 1 c c' (vsizes vs)) /\
  (forall b c kvs c', dentries b c kvs c' -> fits 1 c c' (esizes kvs)) /\
  (forall b c v c', dkey b c v c' -> fits 0 c c' (vsize v)) /\
  (forall c ps c', dname c ps c' -> fits (length ps) c c' (vsizes ps)) /\
  (forall c ps c', dparts c ps c' -> fits (length ps) c c' (vsizes ps)).
Proof.
  apply (dexpr_mutind
    (fun l c v c' _ => fits 0 c c' (vsize v))
    (fun c o c' _ => fits 0 c c' (osize o))
    (fun k c vs c' _ => k <> KEof -> fits 1 c c' (vsizes vs))
    (fun b c kvs c' _ => fits 1 c c' (esizes kvs))
    (fun b c v c' _ => fits 0 c c' (vsize v))
    (fun c ps c' _ => fits (length ps) c c' (vsizes ps))
    (fun c ps c' _ => fits (length ps) c c' (vsizes ps))); intros; lens;
    repeat match goal with
    | H : level_op _ _ = Some _ |- _ => apply level_not_eof in H
    | H : prefix_op _ = Some _ |- _ => apply prefix_not_eof in H
    | H : simple_lit _ = Some _ |- _ => apply simple_not_eof in H
    | H : some_of _ _ |- _ => apply some_len in H
    | H : string_text _ |- _ => apply string_len in H
    | H : name_text _ |- _ => apply name_len in H
    | H : is_sid _ |- _ => apply sid_len in H
    | H : dparams _ _ _ |- _ => apply dparams_fits in H
    | H : (if ?b then KLitCOpen else KCOpen) <> KEof -> _ |- _ => specialize (H (open_not_eof b))
    | H : KPClose <> KEof -> _ |- _ => specialize (H ltac:(discriminate))
    | H : KSqClose <> KEof -> _ |- _ => specialize (H ltac:(discriminate))
    end.
  all: go.
  match goal with H : ?l <> [] |- _ => destruct l; [congruence|cbn [length] in *; lia] end.
Qed.
Lemma dexpr_fits l c v c' : dexpr l c v c' -> fits 0 c c' (vsize v).
Proof. apply expr_fits. Qed.
Lemma dname_fits c ps c' : dname c ps c' -> fits (length ps) c c' (vsizes ps).
Proof. apply expr_fits. Qed.
Lemma dopt_fits c o c' : dopt c o c' -> fits 0 c c' (osize o).
Proof. apply expr_fits. Qed.

Lemma dlval_fits c v c' : dlval c v c' -> fits 0 c c' (vsize v).
Proof.
  induction 1; lens;
    repeat match goal with
    | H : simple_lit _ = Some _ |- _ => apply simple_not_eof in H
    | H : some_of _ _ |- _ => apply some_len in H
    | H : name_text _ |- _ => apply name_len in H
    | H : dname _ _ _ |- _ => apply dname_fits in H
    | H : dopt _ _ _ |- _ => apply dopt_fits in H
    | H : dexpr _ _ _ _ |- _ => apply dexpr_fits in H
    end.
  all: go.
  match goal with H : ?l <> [] |- _ => destruct l; [congruence|cbn [length] in *; lia] end.
Qed.

(** ** Scripts *)
Ltac lens2 := lens; repeat match goal with
    | H : some_of _ _ |- _ => apply some_len in H
    | H : dexpr _ _ _ _ |- _ => apply dexpr_fits in H
    | H : dlval _ _ _ |- _ => apply dlval_fits in H
    end.
Lemma dtargets_fits c vs r c' : dtargets c vs r c' -> fits 0 c c' (vsizes vs + osize r).
Proof. induction 1; lens2; go. Qed.
Lemma dlhs_fits one c l ls r c' : dlhs one c l ls r c' -> fits 0 c c' (osize l + vsizes ls + osize r).
Proof. destruct 1; [|apply dtargets_fits in H0]; lens2; go. Qed.
Lemma dexprs_fits c vs c' : dexprs c vs c' -> fits 0 c c' (vsizes vs).
Proof. induction 1; lens2; go. Qed.
Lemma dlvals_fits c vs c' : dlvals c vs c' -> fits 0 c c' (vsizes vs).
Proof. induction 1; lens2; go. Qed.
Lemma ddefault_fits m c vs c' : ddefault m c vs c' -> fits 0 c c' (vsizes vs).
Proof. destruct 1; lens2; go. Qed.
Lemma dfparams_fits m c vs ds c' : dfparams m c vs ds c' -> fits 0 c c' (vsizes vs + vsizes ds).
Proof.
  induction 1; lens2; repeat match goal with H : ddefault _ _ _ _ |- _ => apply ddefault_fits in H end;
    try match goal with H : tk _ = _ |- _ => rewrite H in * end; go.
Qed.
Lemma dattrs_fits a c b c' : dattrs a c b c' -> (clen c' <= clen c).
Proof. induction 1; lens2; lia. Qed.
Lemma ddepth_fits c z c' : ddepth c z c' -> (clen c' <= clen c).
Proof. destruct 1; lens2; lia. Qed.
Lemma dpattern_fits c z c' : dpattern c z c' -> (clen c' <= clen c).
Proof.
  destruct 1 as [? ? H|? ? ? ? ? ? H _ _ _ [q H2]|? ? ? ? ? ? ? H _ _ _ H2]; apply blank_clen in H; try apply spells_clen in H2; cbn [clen] in *; lia.
Qed.
Lemma dhwords_fits c ws m c' : dhwords c ws m c' -> fits 1 c c' (vsizes ws).
Proof. induction 1; lens2; go. Qed.
Lemma dtrail_fits c vs c' : dtrail c vs c' -> fits 0 c c' (vsizes vs).
Proof. destruct 1; lens2; cbn [clen] in *; go. Qed.
Lemma dhlines_fits m c vs c' : dhlines m c vs c' -> fits 0 c c' (vsizes vs).
Proof. induction 1; lens2; cbn [clen] in *; go. Qed.
Lemma gap_fits a b : gap a b -> (clen b <= clen a).
Proof. induction 1; lens2; cbn [clen] in *; lia. Qed.
Lemma head_fits nv P a b d c e : head nv P a b d c e -> (clen c < clen a).
Proof. intros H. exact (proj2 (head_sfx nv P a b d c e H)). Qed.

Lemma script_fits nv :
  (forall w a c vs, cmd_nodes nv w a c vs -> fits 0 a c (vsizes vs)) /\
  (forall w a c vs, block nv w a c vs -> fits 0 a c (vsizes vs)) /\
  (forall w a c b es el, if_chain nv w a c b es el -> fits 0 a c (vsizes b + vsizes es + osize el)) /\
  (forall w a c b es el, try_chain nv w a c b es el -> fits 0 a c (vsizes b + vsizes es + osize el)).
Proof.
  apply (script_mutind nv
    (fun w a c vs _ => fits 0 a c (vsizes vs))
    (fun w a c vs _ => fits 0 a c (vsizes vs))
    (fun w a c b es el _ => fits 0 a c (vsizes b + vsizes es + osize el))
    (fun w a c b es el _ => fits 0 a c (vsizes b + vsizes es + osize el))); intros; lens2;
    repeat match goal with
    | H : dlhs _ _ _ _ _ _ |- _ => apply dlhs_fits in H
    | H : dexprs _ _ _ |- _ => apply dexprs_fits in H
    | H : dlvals _ _ _ |- _ => apply dlvals_fits in H
    | H : dfparams _ _ _ _ _ |- _ => apply dfparams_fits in H
    | H : dattrs _ _ _ _ |- _ => apply dattrs_fits in H
    | H : ddepth _ _ _ |- _ => apply ddepth_fits in H
    | H : dpattern _ _ _ |- _ => apply dpattern_fits in H
    | H : dhwords _ _ _ _ |- _ => apply dhwords_fits in H
    | H : dtrail _ _ _ |- _ => apply dtrail_fits in H
    | H : dhlines _ _ _ _ |- _ => apply dhlines_fits in H
    | H : gap _ _ |- _ => apply gap_fits in H
    | H : head _ _ _ _ _ _ _ |- _ => apply head_fits in H
    | H : sfx _ _ |- _ => apply sfx_clen in H
    end; cbn [clen] in *.
  all: try solve [go].
  - unfold fits in *. cbn [clen]. go.
  - match goal with H : exists r, peek1 _ = _ /\ _ |- _ => destruct H as (r & R1 & R2) end.
    match goal with H : same_line _ _ |- _ => destruct H as [s0 S0] end.
    destruct s0 as [|x s0]; [|apply spells_clen in S0; cbn [length] in S0; go].
    exfalso. assert (a = c) as -> by (inversion S0; reflexivity).
    match goal with H : at_end _ \/ _ |- _ => destruct H as [H|H] end; [unfold at_end in *|]; rewrite R1 in *; try discriminate; match goal with X : Some _ = Some _ |- _ => injection X as X; auto end.
  - match goal with |- context [VCall ?p ?f ?l] => generalize dependent (VCall p f l); intros end. go.
Qed.

Lemma script_size nv c v : script nv c v -> (vsize v <= S (2 * clen c)).
Proof.
  intros (body & c1 & c' & -> & B & G & _). apply (proj1 (proj2 (script_fits nv))) in B. unfold fits in B. vs. lia.
Qed.

(** ** The trees of the AST *)
Fixpoint nsize (n : node) : nat :=
  let o := fun x => match x with Some y => nsize y | None => 0 end in
  let s := fun l => list_sum (map nsize l) in
  S (match n with
  | NFile _ b => s b
  | NComment _ _ | NExcmd _ _ _ | NEndFunction _ _ | NEndIf _ _ | NEndWhile _ _ | NEndFor _ _
  | NContinue _ _ | NBreak _ _ | NEndTry _ _ | NEchohl _ _ _ | NBasicLit _ _ _ | NCurlyLit _ _
  | NIdent _ _ => 0
  | NFunction _ _ b nm ps ds _ e => s b + o nm + s ps + s ds + o e
  | NDelFunction _ _ nm => o nm
  | NReturn _ _ r => o r
  | NExCall _ _ f => o f
  | NLet _ _ _ l ls rs r => o l + s ls + o rs + o r
  | NUnLet _ _ ls | NLockVar _ _ _ ls | NUnLockVar _ _ _ ls => s ls
  | NIf _ _ b c eis el en => s b + o c + s eis + o el + o en
  | NElseIf _ _ b c => s b + o c
  | NElse _ _ b => s b
  | NWhile _ _ b c en => s b + o c + o en
  | NFor _ _ b l ls rs r en => s b + o l + s ls + o rs + o r + o en
  | NTry _ _ b cs fi en => s b + s cs + o fi + o en
  | NCatch _ _ b _ => s b
  | NFinally _ _ b => s b
  | NThrow _ _ x | NEval _ _ x => o x
  | NEchoCmd _ _ _ xs | NExecute _ _ xs => s xs
  | NTernary _ c l r => o c + o l + o r
  | NBinary l _ _ r => o l + o r
  | NUnary _ _ x => o x
  | NSubscript _ l r => o l + o r
  | NSlice x _ lo hi => o x + o lo + o hi
  | NMethod l m _ args => o l + o m + s args
  | NCall f _ args => o f + s args
  | NDot l _ r => o l + o r
  | NList _ vs => s vs
  | NDict _ kvs => list_sum (map (fun kv => match kv with (a, b) =>
      match a with Some y => nsize y | None => 0 end + match b with Some y => nsize y | None => 0 end end) kvs)
  | NCurlyName _ ps => s ps
  | NCurlyExpr _ x => o x
  | NLambda _ ps x => s ps + o x
  | NParen _ x => o x
  | NHeredoc _ fl _ b => s fl + s b
  end).
Definition nsizes (l : list node) : nat := list_sum (map nsize l).
Definition onsize (x : option node) : nat := match x with Some y => nsize y | None => 0 end.
Definition ensizes (l : list (option node * option node)) : nat := list_sum (map (fun kv => match kv with (a, b) => onsize a + onsize b end) l).
Ltac ns := repeat match goal with
  | |- context [list_sum (map nsize ?l)] => change (list_sum (map nsize l)) with (nsizes l)
  | |- context [match ?x with Some y => nsize y | None => 0 end] =>
      change (match x with Some y => nsize y | None => 0 end) with (onsize x)
  end.
Lemma nsizes_app a b : nsizes (a ++ b) = nsizes a + nsizes b.
Proof. unfold nsizes. rewrite map_app, list_sum_app. reflexivity. Qed.
Lemma nsizes_on o : nsizes (on o) = onsize o.
Proof. destruct o; cbn [on]; [|reflexivity]. unfold nsizes. cbn [map list_sum]. cbn [onsize]. cbn. lia. Qed.
Lemma nsizes_flat l : nsizes (flat_map (fun kv => on (fst kv) ++ on (snd kv)) l) = ensizes l.
Proof.
  induction l as [|[k v] l IH]; [reflexivity|]. cbn [flat_map fst snd]. rewrite !nsizes_app, !nsizes_on, IH.
  reflexivity.
Qed.
Lemma nsize_fields n : nsize n = S (nsizes (fields n)).
Proof.
  destruct n; cbn [nsize fields]; ns; rewrite ?nsizes_app, ?nsizes_on, ?nsizes_flat; try reflexivity;
    try (unfold nsizes; cbn [map list_sum]; f_equal; lia); try lia.
Qed.
Lemma preorder_size n : forall log, preorder fields (fun _ => true) n log -> length log = nsize n.
Proof.
  induction n as [n IH] using fields_ind. intros log H. inversion H as [? E|? ls _ F]; subst; [discriminate|].
  rewrite nsize_fields. cbn [length]. f_equal. clear H.
  revert ls F. induction (fields n) as [|x l IHl]; intros ls F; inversion F; subst; [reflexivity|].
  cbn [concat]. rewrite app_length. unfold nsizes. cbn [map]. change (list_sum (nsize x :: map nsize l)) with (nsize x + nsizes l).
  f_equal; [apply IH; [left; reflexivity|assumption]|]. apply IHl; [|assumption]. intros m Hm. apply IH. right. exact Hm.
Qed.

Lemma mapM_size {A} (w : A -> nat) (f : A -> outcome node) l : (forall x y, In x l -> f x = Ok y -> nsize y <= w x) ->
  forall l', mapM f l = Ok l' -> nsizes l' <= list_sum (map w l).
Proof.
  induction l as [|x l IH]; intros H l' E; cbn [mapM] in E.
  - injection E as <-. cbn. lia.
  - destruct (f x) as [y|?|?|] eqn:Ex; cbn [bind] in E; try discriminate.
    destruct (mapM f l) as [ys|?|?|] eqn:El; cbn [bind] in E; try discriminate. injection E as <-.
    unfold nsizes. cbn [map]. change (nsize y + nsizes ys <= w x + list_sum (map w l)).
    pose proof (H x y (or_introl eq_refl) Ex). pose proof (IH (fun a b Ha => H a b (or_intror Ha)) ys eq_refl). lia.
Qed.
Lemma in_sizes x l : In x l -> vsize x <= vsizes l.
Proof.
  induction l as [|y l IH]; [intros []|]. rewrite vsizes_cons. intros [->|H]; [lia|]. specialize (IH H). lia.
Qed.

Section Export.
Context (file : list N).
Let good (m : nat) := forall v n, vsize v <= m -> new_ast file v = Ok n -> nsize n <= vsize v.

Lemma ex_size m v o : good m -> vsize v <= m -> (let* y := new_ast file v in Ok (to_expr y)) = Ok o -> onsize o <= vsize v.
Proof.
  intros G L E. destruct (new_ast file v) as [y|?|?|] eqn:Ev; cbn [bind] in E; try discriminate.
  injection E as <-. unfold to_expr. destruct (is_expr y); cbn [onsize]; [apply G; assumption|lia].
Qed.
Lemma oex_size m v o : good m -> osize v <= m ->
  match v with None => Ok None | Some x => let* y := new_ast file x in Ok (to_expr y) end = Ok o -> onsize o <= osize v.
Proof.
  intros G L E. destruct v as [v|]; [exact (ex_size m v o G L E)|]. injection E as <-. cbn. lia.
Qed.
Lemma cast_size m f v n : good m -> vsize v <= m -> (let* y := new_ast file v in assert_node f y) = Ok n -> nsize n <= vsize v.
Proof.
  intros G L E. destruct (new_ast file v) as [y|?|?|] eqn:Ev; cbn [bind] in E; try discriminate.
  unfold assert_node in E. destruct (f y); [|discriminate]. injection E as <-. apply G; assumption.
Qed.
Lemma exs_size m v n : good m -> vsize v <= m -> (let* y := new_ast file v in expr_elem y) = Ok n -> nsize n <= vsize v.
Proof.
  intros G L E. destruct (new_ast file v) as [y|?|?|] eqn:Ev; cbn [bind] in E; try discriminate.
  unfold expr_elem in E. destruct (is_expr y); [|discriminate]. injection E as <-. apply G; assumption.
Qed.
Lemma casts_size m f l r : good m -> vsizes l <= m -> mapM (fun x => let* y := new_ast file x in assert_node f y) l = Ok r -> nsizes r <= vsizes l.
Proof.
  intros G L E. refine (mapM_size vsize _ l _ r E). intros x y Hx. apply (cast_size m f x y G). apply in_sizes in Hx. lia.
Qed.
Lemma exss_size m l r : good m -> vsizes l <= m -> mapM (fun x => let* y := new_ast file x in expr_elem y) l = Ok r -> nsizes r <= vsizes l.
Proof.
  intros G L E. refine (mapM_size vsize _ l _ r E). intros x y Hx. apply (exs_size m x y G). apply in_sizes in Hx. lia.
Qed.
Lemma ocast_size m f v o : good m -> osize v <= m ->
  match v with None => Panic PType | Some x => let* y := (let* z := new_ast file x in assert_node f z) in Ok (Some y) end = Ok o -> onsize o <= osize v.
Proof.
  intros G L E. destruct v as [v|]; [|discriminate].
  destruct (let* z := new_ast file v in assert_node f z) as [y|?|?|] eqn:Ev; cbn [bind] in E; try discriminate.
  injection E as <-. cbn [onsize osize] in *. exact (cast_size m f v y G L Ev).
Qed.
Lemma optM_size m f v o : good m -> osize v <= m -> optM (fun x => let* y := new_ast file x in assert_node f y) v = Ok o -> onsize o <= osize v.
Proof.
  intros G L E. destruct v as [v|]; cbn [optM] in E; [|injection E as <-; cbn; lia].
  destruct (let* z := new_ast file v in assert_node f z) as [y|?|?|] eqn:Ev; cbn [bind] in E; try discriminate.
  injection E as <-. cbn [onsize osize] in *. exact (cast_size m f v y G L Ev).
Qed.
Lemma kvs_size m l r : good m -> esizes l <= m ->
  mapM (fun kv => match kv with (k, v) =>
     let* k' := (let* y := new_ast file k in Ok (to_expr y)) in let* v' := (let* y := new_ast file v in Ok (to_expr y)) in Ok (k', v') end) l = Ok r ->
  ensizes r <= esizes l.
Proof.
  intros G. revert r. induction l as [|[k v] l IH]; intros r L E; cbn [mapM] in E; [injection E as <-; cbn; lia|].
  rewrite esizes_cons in *.
  destruct (let* y := new_ast file k in Ok (to_expr y)) as [k'|?|?|] eqn:Ek; cbn [bind] in E; try discriminate.
  destruct (let* y := new_ast file v in Ok (to_expr y)) as [v'|?|?|] eqn:Ev; cbn [bind] in E; try discriminate.
  match type of E with context [mapM ?f l] => destruct (mapM f l) as [r'|?|?|] eqn:El; cbn [bind] in E; try discriminate end.
  injection E as <-. change (onsize k' + onsize v' + ensizes r' <= vsize k + vsize v + esizes l).
  apply (ex_size m) in Ek; [|assumption|lia]. apply (ex_size m) in Ev; [|assumption|lia].
  pose proof (IH r' ltac:(lia) eq_refl). lia.
Qed.

Ltac part G := match goal with
  | E : bind ?o _ = Ok _ |- _ =>
    let y := fresh "y" in let Ey := fresh "Ey" in
    destruct o as [y|?|?|] eqn:Ey; cbn [bind] in E; try discriminate E;
    first [ apply (ex_size _ _ _ G) in Ey; [|lia]
          | apply (oex_size _ _ _ G) in Ey; [|lia]
          | apply (ocast_size _ _ _ _ G) in Ey; [|lia]
          | apply (optM_size _ _ _ _ G) in Ey; [|lia]
          | apply (casts_size _ _ _ _ G) in Ey; [|lia]
          | apply (exss_size _ _ _ G) in Ey; [|lia]
          | apply (cast_size _ _ _ _ G) in Ey; [|lia]
          | apply (kvs_size _ _ _ G) in Ey; [|lia] ]
  end.
Lemma new_ast_size m : good m.
Proof.
  induction m as [|m G]; [intros v; pose proof (vsize_pos v); intros; lia|].
  intros v n L E. revert L. vs. destruct v; vs; intros L; cbn [new_ast] in E.
  all: try (destruct (ea_cmd ea); [|discriminate E]).
  all: try (match type of E with match ?w with VCall _ _ _ => _ | _ => _ end = _ => destruct w; try discriminate E; revert L; vs; intros L end).
  all: repeat part G; injection E as <-; cbn [nsize onsize]; ns; try lia.
  unfold ensizes, onsize in *. lia.
Qed.
End Export.
