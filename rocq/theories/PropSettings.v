(** C30 command line settings, C31 merging of settings. *)
From Coq Require Import Ascii String.
From Verif Require Import Base Settings.
Local Open Scope list_scope.

Lemma txt_eqb_eq a b : txt_eqb a b = true <-> a = b.
Proof.
  revert b. induction a as [|x a IH]; intros [|y b]; cbn; try (split; congruence).
  destruct (Ascii.eqb_spec x y) as [->|N]; [rewrite IH; split; congruence|split; congruence].
Qed.
Lemma txt_eqb_refl a : txt_eqb a a = true.
Proof. apply txt_eqb_eq. reflexivity. Qed.
Lemma txt_eqb_neq a b : a <> b -> txt_eqb a b = false.
Proof. intro H. destruct (txt_eqb a b) eqn:E; [apply txt_eqb_eq in E; contradiction|reflexivity]. Qed.
Lemma txt_dec (a b : txt) : {a = b} + {a <> b}.
Proof. apply list_eq_dec. apply ascii_dec. Qed.

(** ** specification: the value a user sees at a path *)
Definition value_at (t : ptree) (fs : list txt) : option txt := option_map p_data (p_walk t fs).
Definition is_prefix (p q : list txt) : Prop := exists r, q = p ++ r.
Lemma is_prefix_dec p q : {is_prefix p q} + {~ is_prefix p q}.
Proof.
  revert q. induction p as [|x p IH]; intro q; [left; exists q; reflexivity|].
  destruct q as [|y q]; [right; intros [r H]; discriminate|].
  destruct (txt_dec x y) as [->|N]; [|right; intros [r H]; injection H as -> _; contradiction].
  destruct (IH q) as [L|R]; [left; destruct L as [r ->]; exists r; reflexivity|right; intros [r H]; injection H as H; apply R; exists r; exact H].
Qed.

Lemma find_set_same k t cs : p_find k cs <> None -> p_find k (p_set k t cs) = Some t.
Proof.
  induction cs as [|[k' t'] cs IH]; cbn; [congruence|]. destruct (txt_eqb k k') eqn:E; intro H; cbn; rewrite E; auto.
Qed.
Lemma find_set_other k k' t cs : k <> k' -> p_find k (p_set k' t cs) = p_find k cs.
Proof.
  intro N. induction cs as [|[k0 t0] cs IH]; cbn; [reflexivity|]. destruct (txt_eqb k' k0) eqn:E; cbn.
  - apply txt_eqb_eq in E; subst k0. rewrite txt_eqb_neq by exact N. reflexivity.
  - destruct (txt_eqb k k0); auto.
Qed.
Lemma find_app k cs ds : p_find k (cs ++ ds) = match p_find k cs with Some t => Some t | None => p_find k ds end.
Proof. induction cs as [|[k0 t0] cs IH]; cbn; [reflexivity|]. destruct (txt_eqb k k0); auto. Qed.

Lemma walk_empty fs : p_walk p_empty fs = match fs with [] => Some p_empty | _ => None end.
Proof. destruct fs; reflexivity. Qed.

Lemma walk_update_below q : forall t f r, p_walk (p_update t q f) (q ++ r) = p_walk (f (match p_walk t q with Some n => n | None => p_empty end)) r.
Proof.
  induction q as [|k q IH]; intros t f r; cbn [p_update app p_walk]; [reflexivity|].
  destruct (p_find k (p_children t)) as [c|] eqn:F; cbn [p_children].
  - rewrite find_set_same by congruence. apply IH.
  - rewrite find_app, F. cbn. rewrite txt_eqb_refl, IH. rewrite walk_empty. destruct q; reflexivity.
Qed.
(** everywhere else *)
Lemma value_update_else q : forall t f p, ~ is_prefix q p ->
  value_at (p_update t q f) p = match value_at t p with Some v => Some v | None => if is_prefix_dec p q then Some [] else None end.
Proof.
  unfold value_at. induction q as [|k q IH]; intros t f p Hp; [exfalso; apply Hp; exists p; reflexivity|].
  destruct p as [|k' p].
  - cbn [p_walk option_map]. destruct (p_find k (p_children t)) eqn:F; cbn [p_update]; rewrite F; reflexivity.
  - cbn [p_update p_walk].
    assert (Pd : (if is_prefix_dec (k' :: p) (k :: q) return option txt then @Some (list ascii) [] else @None txt) =
                 (if txt_dec k' k then if is_prefix_dec p q return option txt then @Some (list ascii) [] else @None txt else @None txt)).
    { destruct (is_prefix_dec (k' :: p) (k :: q)) as [L|R].
      - destruct L as [r L]. injection L as -> ->. destruct (txt_dec k' k'); [|contradiction].
        destruct (is_prefix_dec p (p ++ r)) as [_|N]; [reflexivity|]. exfalso. apply N. exists r. reflexivity.
      - destruct (txt_dec k' k) as [->|]; [|reflexivity]. destruct (is_prefix_dec p q) as [[r ->]|]; [|reflexivity].
        exfalso. apply R. exists r. reflexivity. }
    destruct (txt_dec k' k) as [->|N].
    + assert (Hp' : ~ is_prefix q p) by (intros [r ->]; apply Hp; exists r; reflexivity).
      destruct (p_find k (p_children t)) as [c|] eqn:F; cbn [p_children].
      * rewrite find_set_same by congruence. rewrite IH by exact Hp'. rewrite Pd. reflexivity.
      * rewrite find_app, F. cbn [p_find]. rewrite txt_eqb_refl. rewrite IH by exact Hp'. rewrite Pd, walk_empty.
        destruct p as [|? ?]; cbn [option_map p_data p_empty]; [|reflexivity].
        destruct (is_prefix_dec [] q) as [_|X]; [reflexivity|]. exfalso. apply X. exists q. reflexivity.
    + destruct (p_find k (p_children t)) as [c|] eqn:F; cbn [p_children].
      * rewrite find_set_other by exact N. rewrite Pd. destruct (p_find k' (p_children t)) as [c'|]; [destruct (p_walk c' p); reflexivity|reflexivity].
      * rewrite find_app. rewrite Pd. destruct (p_find k' (p_children t)) as [c'|].
        -- destruct (p_walk c' p); reflexivity.
        -- cbn [p_find]. rewrite txt_eqb_neq by exact N. reflexivity.
Qed.
(** setting the data of one node *)
Lemma value_put q t v p : value_at (p_update t q (fun n => PNode v (p_children n))) p =
  if list_eq_dec txt_dec p q then Some v
  else match value_at t p with Some u => Some u | None => if is_prefix_dec p q then Some [] else None end.
Proof.
  destruct (is_prefix_dec q p) as [[r ->]|N].
  - unfold value_at. rewrite walk_update_below. destruct (list_eq_dec txt_dec (q ++ r) q) as [E|N].
    + assert (r = []) by (apply (app_inv_head q); rewrite app_nil_r; exact E). subst r. reflexivity.
    + destruct r as [|k r]; [exfalso; apply N; apply app_nil_r|]. cbn [p_walk p_children].
      assert (W : forall (m : option ptree), m = p_walk t q -> p_walk t (q ++ k :: r) = match m with Some n => p_walk n (k :: r) | None => None end).
      { intros m ->. clear. revert t. induction q as [|k0 q IH]; intro t; cbn [app p_walk]; [reflexivity|].
        destruct (p_find k0 (p_children t)); [apply IH|reflexivity]. }
      rewrite (W _ eq_refl). destruct (p_walk t q) as [n|].
      * cbn [p_walk]. destruct (p_find k (p_children n)) as [c|]; cbn.
        -- destruct (p_walk c r); [reflexivity|]. destruct (is_prefix_dec (q ++ k :: r) q) as [[s S]|_]; [|reflexivity].
           exfalso. rewrite <- app_assoc in S. rewrite <- (app_nil_r q) in S at 1. apply app_inv_head in S. discriminate.
        -- destruct (is_prefix_dec (q ++ k :: r) q) as [[s S]|_]; [|reflexivity].
           exfalso. rewrite <- app_assoc in S. rewrite <- (app_nil_r q) in S at 1. apply app_inv_head in S. discriminate.
      * cbn. destruct (is_prefix_dec (q ++ k :: r) q) as [[s S]|_]; [|reflexivity].
        exfalso. rewrite <- app_assoc in S. rewrite <- (app_nil_r q) in S at 1. apply app_inv_head in S. discriminate.
  - rewrite value_update_else by exact N. destruct (list_eq_dec txt_dec p q) as [->|]; [|reflexivity].
    exfalso. apply N. exists []. rewrite app_nil_r. reflexivity.
Qed.

(** ** C30 *)

(** What a command line means, independently of the tree: the list of (name, value) settings in order. An argument counts
    iff it starts with "--"; the name is what precedes the first '=', the value what follows it; without '=' the value is
    the name itself. *)
Inductive setting_of : txt -> txt * txt -> Prop :=
| setting_eq : forall name value, ~ In ch_eq name -> setting_of (ch_dash :: ch_dash :: name ++ ch_eq :: value) (name, value)
| setting_no_eq : forall name, ~ In ch_eq name -> setting_of (ch_dash :: ch_dash :: name) (name, name).
Definition no_setting (a : txt) : Prop := forall r, a <> ch_dash :: ch_dash :: r.
Inductive settings_of : list txt -> list (txt * txt) -> Prop :=
| settings_nil : settings_of [] []
| settings_take : forall a s args ss, setting_of a s -> settings_of args ss -> settings_of (a :: args) (s :: ss)
| settings_skip : forall a args ss, no_setting a -> settings_of args ss -> settings_of (a :: args) ss.

(** the value of the last setting for the path *)
Fixpoint last_setting (ss : list (txt * txt)) (fs : list txt) : option txt :=
  match ss with
  | [] => None
  | (n, v) :: r => match last_setting r fs with
                   | Some u => Some u
                   | None => if list_eq_dec txt_dec fs (fragments n) then Some v else None
                   end
  end.

Lemma before_eq_app name rest : ~ In ch_eq name -> before_eq (name ++ ch_eq :: rest) = name /\ after_eq (name ++ ch_eq :: rest) = Some rest.
Proof.
  intro H. induction name as [|c name IH]; cbn [app before_eq after_eq].
  - cbn. auto.
  - destruct (Ascii.eqb_spec c ch_eq) as [->|N]; [exfalso; apply H; left; reflexivity|].
    destruct IH as [I1 I2]; [intro X; apply H; right; exact X|]. rewrite I1, I2. auto.
Qed.
Lemma before_eq_none name : ~ In ch_eq name -> before_eq name = name /\ after_eq name = None.
Proof.
  intro H. induction name as [|c name IH]; cbn [before_eq after_eq]; [auto|].
  destruct (Ascii.eqb_spec c ch_eq) as [->|N]; [exfalso; apply H; left; reflexivity|].
  destruct IH as [I1 I2]; [intro X; apply H; right; exact X|]. rewrite I1, I2. auto.
Qed.
Lemma settings_total : forall args, exists ss, settings_of args ss.
Proof.
  induction args as [|a args [ss IH]]; [exists []; constructor|].
  destruct a as [|c1 [|c2 r]].
  - exists ss. apply settings_skip; [intros r; discriminate|exact IH].
  - exists ss. apply settings_skip; [intros r; discriminate|exact IH].
  - destruct (Ascii.ascii_dec c1 ch_dash) as [->|N1]; [destruct (Ascii.ascii_dec c2 ch_dash) as [->|N2]|].
    + destruct (in_dec Ascii.ascii_dec ch_eq r) as [L|N].
      * assert (exists n v, ~ In ch_eq n /\ r = n ++ ch_eq :: v) as (n & v & Hn & ->).
        { clear - L. induction r as [|c r IH]; [contradiction|]. destruct (Ascii.ascii_dec c ch_eq) as [->|Nc].
          - exists [], r. auto.
          - destruct IH as (n & v & Hn & ->); [destruct L as [L|L]; [contradiction|exact L]|].
            exists (c :: n), v. split; [intros [X|X]; contradiction|reflexivity]. }
        exists ((n, v) :: ss). apply settings_take; [constructor; exact Hn|exact IH].
      * exists ((r, r) :: ss). apply settings_take; [constructor; exact N|exact IH].
    + exists ss. apply settings_skip; [intros r' X; injection X as ? ?; contradiction|exact IH].
    + exists ss. apply settings_skip; [intros r' X; injection X as ? ?; contradiction|exact IH].
Qed.

Lemma parse_step : forall a s args t, setting_of a s ->
  parse_command_line t (a :: args) = (let! t' := p_put t (fst s) (snd s) in parse_command_line t' args).
Proof.
  intros a s args t H. destruct H as [n v Hn|n Hn]; cbn [parse_command_line fst snd].
  - destruct (before_eq_app n v Hn) as [B A]. rewrite B, A. reflexivity.
  - destruct (before_eq_none n Hn) as [B A]. rewrite B, A. reflexivity.
Qed.
Lemma parse_skip a args t : no_setting a -> parse_command_line t (a :: args) = parse_command_line t args.
Proof.
  intro H. destruct a as [|c1 [|c2 r]]; try reflexivity. cbn [parse_command_line].
  destruct (Ascii.eqb_spec c1 ch_dash) as [->|]; [|reflexivity]. destruct (Ascii.eqb_spec c2 ch_dash) as [->|]; [|reflexivity].
  exfalso. eapply H. reflexivity.
Qed.

(** After parsing any command line (no setting name ending with a dot), the value at every path is: the value of the last
    argument for that path; otherwise what the tree had before; otherwise the empty string if some argument's path goes
    through it; otherwise nothing. *)
Theorem C30_command_line : forall args, exists ss, settings_of args ss /\
  ((forall n v, In (n, v) ss -> ends_with_dot n = false) -> forall t,
   exists t', parse_command_line t args = Ok t' /\
   forall fs, value_at t' fs =
     match last_setting ss fs with
     | Some v => Some v
     | None => match value_at t fs with
               | Some v => Some v
               | None => if existsb (fun s => if is_prefix_dec fs (fragments (fst s)) then true else false) ss then Some [] else None
               end
     end).
Proof.
  intro args. destruct (settings_total args) as [ss H]. exists ss. split; [exact H|]. clear - H. induction H as [|a s args ss Ha H IH|a args ss Ha H IH]; intros Hd t.
  - exists t. split; [reflexivity|]. intro fs. cbn. destruct (value_at t fs); reflexivity.
  - destruct s as [n v]. rewrite (parse_step _ _ _ _ Ha). cbn [fst snd].
    assert (Hp : p_put t n v = Ok (p_update t (fragments n) (fun n => PNode v (p_children n)))).
    { unfold p_put. rewrite (Hd n v) by (left; reflexivity). destruct (p_walk t (fragments n)); reflexivity. }
    rewrite Hp. cbn [bind]. destruct (IH (fun n v X => Hd n v (or_intror X)) (p_update t (fragments n) (fun n => PNode v (p_children n)))) as (t' & T & V).
    exists t'. split; [exact T|]. intro fs. rewrite V. cbn [last_setting existsb fst].
    destruct (last_setting ss fs) as [u|]; [reflexivity|]. rewrite value_put.
    destruct (list_eq_dec txt_dec fs (fragments n)) as [->|N]; [reflexivity|].
    destruct (value_at t fs) as [u|]; [reflexivity|]. destruct (is_prefix_dec fs (fragments n)); reflexivity.
  - destruct (IH Hd t) as (t' & T & V). exists t'. split; [rewrite parse_skip by exact Ha; exact T|exact V].
Qed.
Print Assumptions C30_command_line.

(** The getters: the mandatory one returns the converted value or throws runtime_error, the other returns the default in
    exactly the same cases. *)
Theorem C30_get : forall T (conv : txt -> option T) t name d,
  (s_get conv t name = Throw RuntimeError /\ s_get_or conv t name d = d /\
     (value_at t (fragments name) = None \/ exists u, value_at t (fragments name) = Some u /\ conv u = None)) \/
  (exists u v, value_at t (fragments name) = Some u /\ conv u = Some v /\ s_get conv t name = Ok v /\ s_get_or conv t name d = v).
Proof.
  intros T conv t name d. unfold s_get, s_get_or, value_at. destruct (p_walk t (fragments name)) as [n|]; cbn [option_map].
  - destruct (conv (p_data n)) as [v|] eqn:C; [right; exists (p_data n), v; auto|left]. split; [reflexivity|]. split; [reflexivity|]. right. eauto.
  - left. auto.
Qed.
Print Assumptions C30_get.

(** put followed by get returns the value put, for every name not ending with a dot, and put reports success. *)
Theorem C30_put_get : forall t name value, ends_with_dot name = false ->
  exists t', s_put t name value = Ok (t', true) /\ s_get (fun x => Some x) t' name = Ok value.
Proof.
  intros t name value H. unfold s_put, p_put.
  exists (p_update t (fragments name) (fun n => PNode value (p_children n))). rewrite H. split; [destruct (p_walk t (fragments name)); reflexivity|].
  pose proof (value_put (fragments name) t value (fragments name)) as V.
  destruct (list_eq_dec txt_dec (fragments name) (fragments name)) as [_|N]; [|contradiction].
  unfold value_at in V. unfold s_get. destruct (p_walk _ (fragments name)) as [n|]; cbn in V; [|discriminate]. injection V as ->. reflexivity.
Qed.
Print Assumptions C30_put_get.

Definition tx (s : string) : txt := list_ascii_of_string s.
Example C30_witness : exists t', parse_command_line p_empty [tx "prog"; tx "--a.b=1"; tx "-x=2"; tx "--c=2=3"; tx "--a.b=4"; tx "--flag"] = Ok t' /\
  value_at t' [tx "a"; tx "b"] = Some (tx "4") /\ value_at t' [tx "c"] = Some (tx "2=3") /\ value_at t' [tx "flag"] = Some (tx "flag") /\
  value_at t' [tx "a"] = Some [] /\ value_at t' [tx "x"] = None.
Proof. eexists. split; [reflexivity|]. repeat split. Qed.

(** ** C31 *)

(** keys used as paths mean themselves: non-empty, without dots; distinct within a node *)
Inductive clean : ptree -> Prop :=
| clean_node : forall d cs, NoDup (map fst cs) ->
    Forall (fun kc => fst kc <> [] /\ ~ In ch_dot (fst kc)) cs -> Forall (fun kc => clean (snd kc)) cs -> clean (PNode d cs).

Lemma clean_fragments k : k <> [] -> ~ In ch_dot k -> fragments k = [k] /\ ends_with_dot k = false.
Proof.
  intros Hne Hd. split.
  - unfold fragments. assert (S : split_dots k = [k]).
    { clear Hne. induction k as [|c k IH]; [reflexivity|]. cbn [split_dots].
      destruct (Ascii.eqb_spec c ch_dot) as [->|_]; [exfalso; apply Hd; left; reflexivity|].
      rewrite IH by (intro X; apply Hd; right; exact X). reflexivity. }
    rewrite S. cbn. destruct k; [contradiction|reflexivity].
  - unfold ends_with_dot. destruct (rev k) as [|c r] eqn:E; [reflexivity|]. destruct (Ascii.eqb_spec c ch_dot) as [->|]; [|reflexivity].
    exfalso. apply Hd. apply in_rev. rewrite E. left. reflexivity.
Qed.

Lemma value_at_cons t k fs : value_at t (k :: fs) = match p_find k (p_children t) with Some c => value_at c fs | None => None end.
Proof. unfold value_at. cbn. destruct (p_find k (p_children t)); reflexivity. Qed.

(** Merging any tree with one whose keys are clean: every path has the left value if the left tree has the path, and the
    right value otherwise; nothing is lost and nothing is invented. *)
Theorem C31_merge : forall right, clean right -> forall left, exists m, p_merge right left = Ok m /\
  forall fs, value_at m fs = match value_at left fs with Some v => Some v | None => value_at right fs end.
Proof.
  fix SELF 2. intros right Hc left. destruct Hc as [d cs Hn Hk Hcs]. cbn [p_merge].
  set (go := fix go (cs : list (txt * ptree)) (merged : ptree) {struct cs} : outcome ptree := _).
  assert (GN : forall left, go [] left = Ok left) by reflexivity.
  assert (GC : forall k c cs left, go ((k, c) :: cs) left = (let! m' := match p_find k (p_children left) with
               | Some found =>
                   let! m := p_merge c found in
                   match p_walk left (fragments k) with
                   | Some _ => Ok (p_update left (fragments k) (fun _ => m))
                   | None => Throw RuntimeError
                   end
               | None => match fragments k with
                         | [] => UB AssertFailed
                         | _ => if ends_with_dot k then UB AssertFailed
                                else Ok (p_update left (fragments k) (fun _ => c))
                         end
               end in go cs m')) by reflexivity.
  assert (Rest : forall fs, value_at (PNode d cs) fs = match fs with [] => Some d | k :: r => match p_find k cs with Some c => value_at c r | None => None end end).
  { intros [|k r]; [reflexivity|]. apply value_at_cons. }
  enough (G : exists m, go cs left = Ok m /\ p_data m = p_data left /\
     forall k r, value_at m (k :: r) = match value_at left (k :: r) with Some v => Some v | None => match p_find k cs with Some c => value_at c r | None => None end end).
  { destruct G as (m & G1 & G2 & G3). exists m. split; [exact G1|]. intros [|k r]; [unfold value_at; cbn; rewrite G2; reflexivity|].
    rewrite G3, Rest. reflexivity. }
  clear Rest. clearbody go. revert left Hn Hk. induction Hcs as [|[k c] cs Hc Hcs IH]; intros left Hn Hk.
  - exists left. split; [apply GN|]. split; [reflexivity|]. intros k r. cbn. destruct (value_at left (k :: r)); reflexivity.
  - cbn [map fst snd] in *. inversion Hn as [|? ? Hnk Hn']; subst. inversion Hk as [|? ? [Hk1 Hk2] Hk']; subst. cbn [fst] in *.
    destruct (clean_fragments k Hk1 Hk2) as [F1 F2].
    assert (Step : exists merged', (match p_find k (p_children left) with
               | Some found =>
                   let! m := p_merge c found in
                   match p_walk left (fragments k) with
                   | Some _ => Ok (p_update left (fragments k) (fun _ => m))
                   | None => Throw RuntimeError
                   end
               | None => match fragments k with
                         | [] => UB AssertFailed
                         | _ => if ends_with_dot k then UB AssertFailed
                                else Ok (p_update left (fragments k) (fun _ => c))
                         end
               end) = Ok merged' /\ p_data merged' = p_data left /\
      (forall r, value_at merged' (k :: r) = match value_at left (k :: r) with Some v => Some v | None => value_at c r end) /\
      (forall k' r, k' <> k -> value_at merged' (k' :: r) = value_at left (k' :: r))).
    { rewrite F1, F2. cbn [p_walk p_update]. destruct (p_find k (p_children left)) as [f|] eqn:Ff.
      - destruct (SELF c Hc f) as (m & M1 & M2). rewrite M1. cbn [bind]. eexists. split; [reflexivity|]. split; [reflexivity|]. split.
        + intro r. rewrite !value_at_cons. cbn [p_children]. rewrite find_set_same by congruence. rewrite Ff. apply M2.
        + intros k' r N. rewrite !value_at_cons. cbn [p_children]. rewrite find_set_other by exact N. reflexivity.
      - eexists. split; [reflexivity|]. split; [reflexivity|]. split.
        + intro r. rewrite !value_at_cons. cbn [p_children]. rewrite find_app, Ff. cbn [p_find]. rewrite txt_eqb_refl. reflexivity.
        + intros k' r N. rewrite !value_at_cons. cbn [p_children]. rewrite find_app.
          destruct (p_find k' (p_children left)); [reflexivity|]. cbn [p_find]. rewrite txt_eqb_neq by exact N. reflexivity. }
    destruct Step as (merged' & S1 & S2 & S3 & S4).
    destruct (IH merged' Hn' Hk') as (m & I1 & I2 & I3).
    exists m. split; [rewrite GC, S1; exact I1|]. split; [congruence|]. intros k' r. rewrite I3. cbn [p_find].
    destruct (txt_dec k' k) as [->|N].
    + rewrite txt_eqb_refl, S3.
      assert (Fn : p_find k cs = None).
      { clear - Hnk. induction cs as [|[k0 c0] cs IH]; [reflexivity|]. cbn in *. rewrite txt_eqb_neq by (intros ->; apply Hnk; left; reflexivity).
        apply IH. intro X. apply Hnk. right. exact X. }
      rewrite Fn. change (list ascii) with txt in *. destruct (value_at left (k :: r)); [reflexivity|]. destruct (value_at c r); reflexivity.
    + rewrite (txt_eqb_neq k' k) by exact N. rewrite S4 by exact N. reflexivity.
Qed.
Print Assumptions C31_merge.

(** A key containing a dot is taken for a path: merging a tree with itself, or into an empty one, goes wrong. *)
Theorem C31_dotted_key_refuted : forall k1 k2 c, k1 <> [] -> k2 <> [] -> ~ In ch_dot k1 -> ~ In ch_dot k2 -> p_children c = [] ->
  let t := PNode [] [(k1 ++ ch_dot :: k2, c)] in
  p_merge t t = Throw RuntimeError /\
  exists m, p_merge t p_empty = Ok m /\ value_at m [k1 ++ ch_dot :: k2] = None /\ value_at t [k1 ++ ch_dot :: k2] <> None.
Proof.
  intros k1 k2 c H1 H2 D1 D2 Hc t. subst t.
  assert (F : fragments (k1 ++ ch_dot :: k2) = [k1; k2]).
  { unfold fragments. assert (S : split_dots (k1 ++ ch_dot :: k2) = [k1; k2]).
    { clear H1. induction k1 as [|a k1 IH]; cbn [app split_dots].
      - cbn. f_equal. clear H2. induction k2 as [|b k2 IH]; [reflexivity|]. cbn [split_dots].
        destruct (Ascii.eqb_spec b ch_dot) as [->|_]; [exfalso; apply D2; left; reflexivity|].
        rewrite IH by (intro X; apply D2; right; exact X). reflexivity.
      - destruct (Ascii.eqb_spec a ch_dot) as [->|_]; [exfalso; apply D1; left; reflexivity|].
        rewrite IH by (intro X; apply D1; right; exact X). reflexivity. }
    rewrite S. cbn. destruct k1; [contradiction|]. cbn. destruct k2; [contradiction|]. reflexivity. }
  assert (N1 : k1 <> k1 ++ ch_dot :: k2).
  { intro X. rewrite <- (app_nil_r k1) in X at 1. apply app_inv_head in X. discriminate. }
  assert (Ed : ends_with_dot (k1 ++ ch_dot :: k2) = false).
  { unfold ends_with_dot. rewrite rev_app_distr. cbn [rev]. rewrite <- app_assoc.
    destruct (rev k2) as [|x r] eqn:E; [apply (f_equal (@rev _)) in E; rewrite rev_involutive in E; contradiction|]. cbn.
    destruct (Ascii.eqb_spec x ch_dot) as [->|]; [|reflexivity]. exfalso. apply D2. apply in_rev. rewrite E. left. reflexivity. }
  split.
  - cbn [p_merge p_children p_find]. rewrite txt_eqb_refl. destruct c as [d cs]. cbn in Hc. subst cs. cbn [p_merge bind].
    rewrite F. cbn [p_walk p_children p_find]. rewrite txt_eqb_neq by exact N1. reflexivity.
  - cbn [p_merge p_children p_find p_empty]. rewrite F, Ed. cbn [p_update p_find p_children p_empty app p_data bind]. eexists. split; [reflexivity|].
    unfold value_at. cbn [p_walk p_children p_find]. rewrite (txt_eqb_neq (k1 ++ ch_dot :: k2) k1) by (intro X; apply N1; symmetry; exact X).
    split; [reflexivity|]. rewrite txt_eqb_refl. cbn. discriminate.
Qed.
Print Assumptions C31_dotted_key_refuted.

Example C31_witness : clean (PNode [] [(tx "a", PNode (tx "1") [(tx "b", PNode (tx "2") [])]); (tx "c", PNode (tx "3") [])]).
Proof.
  repeat (constructor; cbn; try (intros [X|X]; [discriminate|contradiction]); try discriminate; try tauto);
  try (intro X; repeat (destruct X as [X|X]; [discriminate|]); contradiction).
Qed.
