(** C33, C34, C35: the thread worker pool under every interleaving. *)
From Coq Require Import Permutation.
From Verif Require Import Base PropQueue Pool.
Local Open Scope list_scope.

Lemma sumf_app {A} (f : A -> nat) l l' : sumf f (l ++ l') = sumf f l + sumf f l'.
Proof. induction l as [|a l IH]; cbn; [reflexivity|lia]. Qed.
Lemma sumf_zero {A} (f : A -> nat) l : sumf f l = 0 -> forall x, In x l -> f x = 0.
Proof. induction l as [|a l IH]; cbn; intros H x []; [subst; lia|apply IH; [lia|assumption]]. Qed.
Lemma sumf_le {A} (f g : A -> nat) l : (forall x, In x l -> f x <= g x) -> sumf f l <= sumf g l.
Proof. induction l as [|a l IH]; cbn; intro H; [lia|]. assert (f a <= g a) by (apply H; auto). assert (sumf f l <= sumf g l) by (apply IH; intros; apply H; auto). lia. Qed.
Lemma sumf_le_eq {A} (f g : A -> nat) l : (forall x, In x l -> f x <= g x) -> sumf f l = sumf g l -> forall x, In x l -> f x = g x.
Proof.
  induction l as [|a l IH]; cbn; intros H E x Hx; [tauto|]. assert (f a <= g a) by (apply H; auto).
  assert (sumf f l <= sumf g l) by (apply sumf_le; intros; apply H; auto). destruct Hx as [<-|Hx]; [lia|]. apply IH; [intros; apply H; auto|lia|exact Hx].
Qed.

Definition tdec (a b : task) : {a = b} + {a <> b}.
Proof. destruct a as [a1 a2], b as [b1 b2]. destruct (Nat.eq_dec a1 b1), (Nat.eq_dec a2 b2); [left; congruence|right; congruence..]. Defined.
Notation occ l t := (count_occ tdec l t).
Lemma occ_snoc l x t : occ (l ++ [x]) t = occ l t + (if tdec x t then 1 else 0).
Proof. rewrite count_occ_app. cbn. destruct (tdec x t); reflexivity. Qed.

Section C33.
Variable R : Type.
Variable perform : task -> option R.
Notation pstate := (pstate R).
Arguments p_calls {R}. Arguments p_todo {R}. Arguments p_workers {R}. Arguments p_done {R}. Arguments p_writes {R}. Arguments p_exec {R}.
Arguments p_sub {R}. Arguments p_taken {R}. Arguments p_lost {R}. Arguments MkPool {R}.

Definition has (w : worker) : list task := match w with WHas t => [t] | _ => [] end.
Definition did (w : worker) : list task := match w with WDid t => [t] | _ => [] end.
Definition valid (calls : list call) (t : task) : nat :=
  match nth_error calls (fst t) with Some k => if Nat.ltb (snd t) (k_sent k) then 1 else 0 | None => 0 end.

(** [fails]: what is known of the tasks that were dropped. *)
Record pinvf (fails : task -> Prop) (w : nat) (ns : list nat) (s : pstate) : Prop := {
  iv_place : forall t, occ (p_sub s) t = occ (p_todo s) t + sumf (fun x => occ (has x) t) (p_workers s) + sumf (fun x => occ (did x) t) (p_workers s)
                                         + occ (p_done s) t + occ (p_taken s) t + occ (p_lost s) t;
  iv_writes : forall t, occ (map fst (p_writes s)) t = sumf (fun x => occ (did x) t) (p_workers s) + occ (p_done s) t + occ (p_taken s) t;
  iv_exec : forall t, occ (p_exec s) t = occ (map fst (p_writes s)) t + occ (p_lost s) t;
  iv_values : forall t v, In (t, v) (p_writes s) -> perform t = Some v;
  iv_lost : forall t, In t (p_lost s) -> fails t;
  iv_valid : forall t, occ (p_sub s) t = valid (p_calls s) t;
  iv_taken : length (p_taken s) = sumf k_taken (p_calls s);
  iv_sent : length (p_sub s) = sumf k_sent (p_calls s);
  iv_calls : forall k, In k (p_calls s) -> k_sent k <= k_n k /\ k_taken k <= k_n k;
  iv_ns : map k_n (p_calls s) = ns;
  iv_w : length (p_workers s) = w;
  iv_len : length (p_sub s) = length (p_todo s) + sumf (fun x => length (has x)) (p_workers s) + sumf (fun x => length (did x)) (p_workers s)
                              + length (p_done s) + length (p_taken s) + length (p_lost s) }.
Notation pinv := (pinvf (fun t => perform t = None)).

Lemma sumf_repeat {A} (f : A -> nat) x n : f x = 0 -> sumf f (repeat x n) = 0.
Proof. intro H. induction n; cbn; [reflexivity|lia]. Qed.
Lemma pinv_init fails w ns : pinvf fails w ns (pinit R w ns).
Proof.
  constructor; cbn [pinit p_calls p_todo p_workers p_done p_writes p_exec p_sub p_taken p_lost].
  - intro t. rewrite !sumf_repeat by reflexivity. reflexivity.
  - intro t. rewrite !sumf_repeat by reflexivity. reflexivity.
  - reflexivity.
  - intros t v [].
  - intros t [].
  - intro t. unfold valid. rewrite nth_error_map. destruct (nth_error ns (fst t)); cbn; [|reflexivity]. destruct (snd t); reflexivity.
  - induction ns; cbn in *; lia.
  - induction ns; cbn in *; lia.
  - intros k Hk. apply in_map_iff in Hk. destruct Hk as (n & <- & _). cbn. lia.
  - rewrite map_map. cbn. apply map_id.
  - apply repeat_length.
  - rewrite !sumf_repeat by reflexivity. reflexivity.
Qed.
Lemma in_upd {A} (l : list A) i x y : In y (upd l i x) -> y = x \/ In y l.
Proof. revert i; induction l as [|a l IH]; intros [|i] H; cbn in *; try tauto; [destruct H; auto|]. destruct H as [H|H]; [tauto|]. apply IH in H. tauto. Qed.
Lemma map_upd {A B} (f : A -> B) (l : list A) i x y : nth_error l i = Some x -> f y = f x -> map f (upd l i y) = map f l.
Proof. revert i; induction l as [|a l IH]; intros [|i] H E; cbn in *; try discriminate; [injection H as ->; congruence|f_equal; eauto]. Qed.

Lemma valid_submit calls c k t : nth_error calls c = Some k ->
  valid (upd calls c (MkCall (k_n k) (S (k_sent k)) (k_taken k))) t = valid calls t + (if tdec (c, k_sent k) t then 1 else 0).
Proof.
  intro H. unfold valid. destruct t as [a i]. cbn [fst snd]. destruct (Nat.eq_dec c a) as [<-|N].
  - rewrite (nth_upd_same _ _ _ _ H), H. cbn [k_sent]. destruct (tdec (c, k_sent k) (c, i)) as [E|E].
    + injection E as <-. rewrite Nat.ltb_irrefl. destruct (Nat.ltb_spec (k_sent k) (S (k_sent k))); lia.
    + assert (i <> k_sent k) by congruence. destruct (Nat.ltb_spec i (S (k_sent k))), (Nat.ltb_spec i (k_sent k)); lia.
  - rewrite nth_upd_other by exact N. destruct (tdec (c, k_sent k) (a, i)) as [E|E]; [congruence|]. lia.
Qed.

Lemma pinv_step (fails : task -> Prop) w ns s s' : (forall t, perform t = None -> fails t) -> pinvf fails w ns s -> pstep R perform s s' -> pinvf fails w ns s'.
Proof.
  intros HF [I1 I2 I3 I4 I5 I6 I7 I8 I9 I10 I11 I12] H.
  destruct H as [s c k Hc L|s wi t r Hw Ht|s wi t v Hw Hp|s wi t Hw Hp|s wi t Hw|s c k t r Hc Hs Ht Hd];
  [assert (Ec := sumf_upd k_sent _ _ _ (MkCall (k_n k) (S (k_sent k)) (k_taken k)) Hc); assert (Et := sumf_upd k_taken _ _ _ (MkCall (k_n k) (S (k_sent k)) (k_taken k)) Hc)
  | assert (Ew1 := fun t0 => sumf_upd (fun x => occ (has x) t0) _ _ _ (WHas t) Hw); assert (Ew2 := fun t0 => sumf_upd (fun x => occ (did x) t0) _ _ _ (WHas t) Hw);
    assert (Ew3 := sumf_upd (fun x => length (has x)) _ _ _ (WHas t) Hw); assert (Ew4 := sumf_upd (fun x => length (did x)) _ _ _ (WHas t) Hw)
  | assert (Ew1 := fun t0 => sumf_upd (fun x => occ (has x) t0) _ _ _ (WDid t) Hw); assert (Ew2 := fun t0 => sumf_upd (fun x => occ (did x) t0) _ _ _ (WDid t) Hw);
    assert (Ew3 := sumf_upd (fun x => length (has x)) _ _ _ (WDid t) Hw); assert (Ew4 := sumf_upd (fun x => length (did x)) _ _ _ (WDid t) Hw)
  | assert (Ew1 := fun t0 => sumf_upd (fun x => occ (has x) t0) _ _ _ WIdle Hw); assert (Ew2 := fun t0 => sumf_upd (fun x => occ (did x) t0) _ _ _ WIdle Hw);
    assert (Ew3 := sumf_upd (fun x => length (has x)) _ _ _ WIdle Hw); assert (Ew4 := sumf_upd (fun x => length (did x)) _ _ _ WIdle Hw)
  | assert (Ew1 := fun t0 => sumf_upd (fun x => occ (has x) t0) _ _ _ WIdle Hw); assert (Ew2 := fun t0 => sumf_upd (fun x => occ (did x) t0) _ _ _ WIdle Hw);
    assert (Ew3 := sumf_upd (fun x => length (has x)) _ _ _ WIdle Hw); assert (Ew4 := sumf_upd (fun x => length (did x)) _ _ _ WIdle Hw)
  | assert (Ec := sumf_upd k_sent _ _ _ (MkCall (k_n k) (k_sent k) (S (k_taken k))) Hc); assert (Et := sumf_upd k_taken _ _ _ (MkCall (k_n k) (k_sent k) (S (k_taken k))) Hc)];
  cbn [has did k_sent k_taken length] in *;
  constructor; cbn [p_calls p_todo p_workers p_done p_writes p_exec p_sub p_taken p_lost];
  (* the places untouched by the step *)
  try assumption; try (rewrite upd_length; assumption).
  (* submit *)
  - intro t. rewrite !occ_snoc. specialize (I1 t). lia.
  - intro t. rewrite occ_snoc, valid_submit by exact Hc. rewrite I6. reflexivity.
  - lia.
  - rewrite app_length. cbn. lia.
  - intros k0 Hk. apply in_upd in Hk. destruct Hk as [->|Hk]; [cbn|apply I9; exact Hk]. assert (In k (p_calls s)) by (eapply nth_error_In; exact Hc). apply I9 in H. lia.
  - erewrite map_upd; [exact I10|exact Hc|reflexivity].
  - rewrite !app_length. cbn. lia.
  (* get *)
  - intro t0. specialize (I1 t0). specialize (Ew1 t0). specialize (Ew2 t0). rewrite Ht in I1. cbn [count_occ] in *. destruct (tdec t t0); lia.
  - intro t0. specialize (I2 t0). specialize (Ew2 t0). cbn [count_occ] in *. lia.
  - rewrite Ht in I12. cbn [length] in I12. lia.
  (* perform *)
  - intro t0. specialize (I1 t0). specialize (Ew1 t0). specialize (Ew2 t0). cbn [count_occ] in *. destruct (tdec t t0); lia.
  - intro t0. specialize (I2 t0). specialize (Ew2 t0). rewrite map_app. cbn [map fst]. rewrite occ_snoc. cbn [count_occ] in *. destruct (tdec t t0); lia.
  - intro t0. specialize (I3 t0). rewrite map_app. cbn [map fst]. rewrite !occ_snoc. lia.
  - intros t0 v0 Hi. apply in_app_or in Hi. destruct Hi as [Hi|[Hi|[]]]; [apply I4; exact Hi|]. injection Hi as <- <-. exact Hp.
  - lia.
  (* throw *)
  - intro t0. specialize (I1 t0). specialize (Ew1 t0). specialize (Ew2 t0). rewrite occ_snoc. cbn [count_occ] in *. destruct (tdec t t0); lia.
  - intro t0. specialize (I2 t0). specialize (Ew2 t0). cbn [count_occ] in *. lia.
  - intro t0. specialize (I3 t0). rewrite !occ_snoc. lia.
  - intros t0 Hi. apply in_app_or in Hi. destruct Hi as [Hi|[<-|[]]]; [apply I5; exact Hi|apply HF; exact Hp].
  - rewrite app_length. cbn. lia.
  (* report *)
  - intro t0. specialize (I1 t0). specialize (Ew1 t0). specialize (Ew2 t0). rewrite occ_snoc. cbn [count_occ] in *. destruct (tdec t t0); lia.
  - intro t0. specialize (I2 t0). specialize (Ew2 t0). rewrite occ_snoc. cbn [count_occ] in *. destruct (tdec t t0); lia.
  - rewrite app_length. cbn. lia.
  (* token *)
  - intro t0. specialize (I1 t0). rewrite Hd in I1. rewrite occ_snoc. cbn [count_occ] in *. destruct (tdec t t0); lia.
  - intro t0. specialize (I2 t0). rewrite Hd in I2. rewrite occ_snoc. cbn [count_occ] in *. destruct (tdec t t0); lia.
  - intro t0. rewrite I6. unfold valid. destruct (Nat.eq_dec c (fst t0)) as [->|N].
    + rewrite (nth_upd_same _ _ _ _ Hc), Hc. reflexivity.
    + rewrite nth_upd_other by exact N. reflexivity.
  - rewrite app_length. cbn. lia.
  - lia.
  - intros k0 Hk. apply in_upd in Hk. destruct Hk as [->|Hk]; [cbn|apply I9; exact Hk]. assert (In k (p_calls s)) by (eapply nth_error_In; exact Hc). apply I9 in H. lia.
  - erewrite map_upd; [exact I10|exact Hc|reflexivity].
  - rewrite app_length. cbn. rewrite Hd in I12. cbn [length] in I12. lia.
Qed.
(** A performed task that is dropped, for whatever reason. *)
Lemma pinv_lose (fails : task -> Prop) w ns s wi t : pinvf fails w ns s -> fails t -> nth_error (p_workers s) wi = Some (WHas t) ->
  pinvf fails w ns (MkPool (p_calls s) (p_todo s) (upd (p_workers s) wi WIdle) (p_done s) (p_writes s) (p_exec s ++ [t]) (p_sub s) (p_taken s) (p_lost s ++ [t])).
Proof.
  intros [I1 I2 I3 I4 I5 I6 I7 I8 I9 I10 I11 I12] Hp Hw.
  assert (Ew1 := fun t0 => sumf_upd (fun x => occ (has x) t0) _ _ _ WIdle Hw); assert (Ew2 := fun t0 => sumf_upd (fun x => occ (did x) t0) _ _ _ WIdle Hw);
  assert (Ew3 := sumf_upd (fun x => length (has x)) _ _ _ WIdle Hw); assert (Ew4 := sumf_upd (fun x => length (did x)) _ _ _ WIdle Hw).
  cbn [has did k_sent k_taken length] in *;
  constructor; cbn [p_calls p_todo p_workers p_done p_writes p_exec p_sub p_taken p_lost]; try assumption; try (rewrite upd_length; assumption).
  - intro t0. specialize (I1 t0). specialize (Ew1 t0). specialize (Ew2 t0). rewrite occ_snoc. cbn [count_occ] in *. destruct (tdec t t0); lia.
  - intro t0. specialize (I2 t0). specialize (Ew2 t0). cbn [count_occ] in *. lia.
  - intro t0. specialize (I3 t0). rewrite !occ_snoc. lia.
  - intros t0 Hi. apply in_app_or in Hi. destruct Hi as [Hi|[<-|[]]]; [apply I5; exact Hi|exact Hp].
  - rewrite app_length. cbn. lia.
Qed.
Lemma pinv_run w ns n s s' : pinv w ns s -> prun R perform n s s' -> pinv w ns s'.
Proof. intros I H. revert I. induction H as [s|n s1 s2 s3 H IH Hs]; intro I; [exact I|exact (pinv_step _ _ _ _ _ (fun t H => H) (IH I) Hs)]. Qed.

(** ** Specification *)
(** all tasks of calls with [ns] tasks *)
Definition is_task (ns : list nat) (t : task) : Prop := exists n, nth_error ns (fst t) = Some n /\ snd t < n.
Definition idle (s : pstate) : Prop := p_todo s = [] /\ p_done s = [] /\ forall x, In x (p_workers s) -> x = WIdle.

Lemma occ_in l t : 0 < occ l t <-> In t l.
Proof. rewrite (count_occ_In tdec). split; lia. Qed.
Lemma last_write_in t (ws : list (task * R)) v : last_write R t ws = Some v -> In (t, v) ws.
Proof.
  induction ws as [|[t' v'] ws IH]; cbn; [discriminate|]. destruct (last_write R t ws) as [v0|]; [intro H; injection H as ->; right; apply IH; reflexivity|].
  destruct (Nat.eqb_spec (fst t) (fst t')), (Nat.eqb_spec (snd t) (snd t')); cbn; try discriminate. intro H. injection H as ->. left. destruct t, t'; cbn in *; congruence.
Qed.
Lemma last_write_some t (ws : list (task * R)) : In t (map fst ws) -> exists v, last_write R t ws = Some v.
Proof.
  induction ws as [|[t' v'] ws IH]; cbn; [tauto|]. intro H. destruct (last_write R t ws) as [v0|] eqn:E; [eauto|].
  destruct H as [->|H]; [rewrite !Nat.eqb_refl; cbn; eauto|]. apply IH in H. destruct H as [v H]. congruence.
Qed.
Lemma valid_task f w ns s t : pinvf f w ns s -> valid (p_calls s) t = 1 -> is_task ns t.
Proof.
  intros I H. unfold valid in H. destruct (nth_error (p_calls s) (fst t)) as [k|] eqn:E; [|discriminate].
  destruct (Nat.ltb_spec (snd t) (k_sent k)); [|discriminate]. exists (k_n k). split.
  - rewrite <- (iv_ns _ _ _ _ I), nth_error_map, E. reflexivity.
  - assert (In k (p_calls s)) by (eapply nth_error_In; exact E). apply (iv_calls _ _ _ _ I) in H1. lia.
Qed.
Lemma occ_sub_le f w ns s t : pinvf f w ns s -> occ (p_sub s) t <= 1.
Proof. intro I. rewrite (iv_valid _ _ _ _ I). unfold valid. destruct (nth_error (p_calls s) (fst t)); [|lia]. destruct (Nat.ltb _ _); lia. Qed.
Lemma exec_le f w ns s t : pinvf f w ns s -> occ (p_exec s) t <= occ (p_sub s) t.
Proof. intro I. rewrite (iv_exec _ _ _ _ I), (iv_writes _ _ _ _ I), (iv_place _ _ _ _ I). lia. Qed.

(** In every reachable state, with any number of concurrent calls, throwing or not: no task is executed twice, nothing
    but submitted tasks is executed, and every value stored for a task is the one its Perform returned. *)
Theorem C33_at_most_once : forall w ns n s, prun R perform n (pinit R w ns) s ->
  NoDup (p_exec s) /\ (forall t, In t (p_exec s) -> is_task ns t) /\
  (forall t v, last_write R t (p_writes s) = Some v -> perform t = Some v).
Proof.
  intros w ns n s H. assert (I := pinv_run _ _ _ _ _ (pinv_init _ w ns) H). split; [|split].
  - apply (NoDup_count_occ tdec). intro t. assert (A := exec_le _ _ _ _ t I). assert (B := occ_sub_le _ _ _ _ t I). lia.
  - intros t Ht. apply occ_in in Ht. assert (A := exec_le _ _ _ _ t I). assert (B := occ_sub_le _ _ _ _ t I).
    apply (valid_task _ _ _ _ _ I). rewrite <- (iv_valid _ _ _ _ I). lia.
  - intros t v Hv. apply last_write_in in Hv. apply (iv_values _ _ _ _ I). exact Hv.
Qed.

(** The calls of [held] have not begun, the other ones have returned. *)
Definition untouched (k : call) : Prop := k_sent k = 0 /\ k_taken k = 0.
Lemma returned_held_inv fails (held : nat -> bool) w ns s : pinvf fails w ns s -> (forall c k, nth_error (p_calls s) c = Some k -> if held c then untouched k else returned k) ->
  idle s /\ p_lost s = [] /\ (forall t, is_task ns t -> held (fst t) = false -> occ (p_exec s) t = 1 /\ exists v, perform t = Some v /\ last_write R t (p_writes s) = Some v).
Proof.
  intros I Ret.
  assert (E1 : sumf k_taken (p_calls s) = sumf k_sent (p_calls s)).
  { assert (Q : forall k, In k (p_calls s) -> k_taken k = k_sent k). { intros k Hk. apply In_nth_error in Hk. destruct Hk as [c Hk]. specialize (Ret _ _ Hk). destruct (held c); destruct Ret; congruence. }
    clear -Q. induction (p_calls s) as [|k l IH]; cbn; [reflexivity|]. rewrite (Q k (or_introl eq_refl)), IH by (intros; apply Q; right; assumption). reflexivity. }
  assert (L := iv_len _ _ _ _ I). rewrite (iv_taken _ _ _ _ I), (iv_sent _ _ _ _ I), E1 in L.
  assert (Lt : length (p_todo s) = 0) by lia. assert (Ld : length (p_done s) = 0) by lia. assert (Ll : length (p_lost s) = 0) by lia.
  assert (Lh : sumf (fun x => length (has x)) (p_workers s) = 0) by lia. assert (Li : sumf (fun x => length (did x)) (p_workers s) = 0) by lia.
  apply length_zero_iff_nil in Lt, Ld, Ll.
  assert (Idle : forall x, In x (p_workers s) -> x = WIdle).
  { intros x Hx. assert (A := sumf_zero _ _ Lh x Hx). assert (B := sumf_zero _ _ Li x Hx). destruct x; cbn in *; [reflexivity|lia|lia]. }
  split; [split; [exact Lt|]; split; [exact Ld|exact Idle]|]. split; [exact Ll|].
  intros t (m & Hm & Lm) Hh.
  assert (V1 : valid (p_calls s) t = 1).
  { unfold valid. rewrite <- (iv_ns _ _ _ _ I), nth_error_map in Hm. destruct (nth_error (p_calls s) (fst t)) as [k|] eqn:E; cbn in Hm; [|discriminate].
    injection Hm as Hm. assert (Hk := Ret _ _ E). rewrite Hh in Hk. destruct Hk as [Hk _].
    destruct (Nat.ltb_spec (snd t) (k_sent k)); [reflexivity|lia]. }
  rewrite <- (iv_valid _ _ _ _ I), (iv_place _ _ _ _ I) in V1. rewrite Lt, Ld, Ll in V1. cbn [count_occ] in V1.
  assert (Z1 : forall f : worker -> nat, f WIdle = 0 -> sumf f (p_workers s) = 0).
  { intros f Hf. clear -Idle Hf. induction (p_workers s) as [|x l IH]; cbn; [reflexivity|]. rewrite (Idle x) by (left; reflexivity). rewrite IH by (intros; apply Idle; right; assumption). lia. }
  rewrite !Z1 in V1 by reflexivity.
  assert (W1 : occ (map fst (p_writes s)) t = 1) by (rewrite (iv_writes _ _ _ _ I), Ld, Z1 by reflexivity; cbn; lia).
  split; [rewrite (iv_exec _ _ _ _ I), W1, Ll; reflexivity|].
  assert (Wi : In t (map fst (p_writes s))) by (apply occ_in; lia).
  apply last_write_some in Wi. destruct Wi as [v Hv]. exists v. split; [|exact Hv]. apply (iv_values _ _ _ _ I). apply last_write_in. exact Hv.
Qed.

Lemma all_returned_inv fails w ns s : pinvf fails w ns s -> (forall k, In k (p_calls s) -> returned k) ->
  idle s /\ p_lost s = [] /\ (forall t, is_task ns t -> occ (p_exec s) t = 1 /\ exists v, perform t = Some v /\ last_write R t (p_writes s) = Some v).
Proof.
  intros I Ret. destruct (returned_held_inv fails (fun _ => false) w ns s I) as (A & B & C); [intros c k Hk; apply Ret; eapply nth_error_In; exact Hk|]. auto.
Qed.

Lemma all_returned w ns n s : prun R perform n (pinit R w ns) s -> (forall k, In k (p_calls s) -> returned k) ->
  idle s /\ p_lost s = [] /\ (forall t, is_task ns t -> occ (p_exec s) t = 1 /\ exists v, perform t = Some v /\ last_write R t (p_writes s) = Some v).
Proof. intro H. eapply all_returned_inv. exact (pinv_run _ _ _ _ _ (pinv_init _ w ns) H). Qed.

(** A single DoTasks call: when it returns, results[i] is what task i returned, for every i; every task was executed
    exactly once (the executed tasks are a permutation of all tasks); and the pool is idle, that is back in the state in
    which the next call starts. *)
Theorem C33_results : forall w n m s k, prun R perform m (pinit R w [n]) s -> p_calls s = [k] -> returned k ->
  (forall i, i < n -> exists v, perform (0, i) = Some v /\ last_write R (0, i) (p_writes s) = Some v) /\
  Permutation (p_exec s) (map (fun i => (0, i)) (seq 0 n)) /\ idle s.
Proof.
  intros w n m s k H Ek Hk. destruct (all_returned _ _ _ _ H) as (A & B & C).
  { intros k0 Hk0. rewrite Ek in Hk0. destruct Hk0 as [<-|[]]. exact Hk. }
  assert (T : forall t, is_task [n] t <-> fst t = 0 /\ snd t < n).
  { intros [a i]. unfold is_task. cbn [fst snd]. split.
    - intros (n' & Hn & L). destruct a as [|[|a]]; cbn in Hn; [|discriminate..]. injection Hn as <-. auto.
    - intros [-> L]. exists n. auto. }
  split; [intros i Li; apply C; apply T; cbn; auto|]. split; [|exact A].
  destruct (C33_at_most_once _ _ _ _ H) as (N & Hin & _).
  apply NoDup_Permutation; [exact N| |].
  - apply FinFun.Injective_map_NoDup; [intros x y E; congruence|apply seq_NoDup].
  - intros t. split; intro Ht.
    + apply Hin, T in Ht. apply in_map_iff. exists (snd t). destruct t; cbn in *. destruct Ht as [-> L]. split; [reflexivity|]. apply in_seq. lia.
    + apply in_map_iff in Ht. destruct Ht as (i & <- & Hi). apply in_seq in Hi. apply occ_in. destruct (C (0, i)) as [-> _]; [apply T; cbn; lia|lia].
Qed.

(** The calls of [held] have not begun and are held back; nothing else can happen: the other calls have returned. *)
Lemma stuck_held (held : nat -> bool) w ns n s : prun R perform n (pinit R w ns) s -> 1 <= w -> (forall t, is_task ns t -> held (fst t) = false -> perform t <> None) ->
  (forall c k, nth_error (p_calls s) c = Some k -> held c = true -> untouched k) ->
  (forall s', pstep R perform s s' -> (forall d, held d = true -> nth_error (p_calls s') d = nth_error (p_calls s) d) -> False) ->
  forall c k, nth_error (p_calls s) c = Some k -> held c = false -> returned k.
Proof.
  intros H Hw Hp Unt Stuck. assert (I := pinv_run _ _ _ _ _ (pinv_init _ w ns) H).
  assert (Idle : forall x, In x (p_workers s) -> x = WIdle).
  { intros x Hx. apply In_nth_error in Hx. destruct Hx as [i Hx]. destruct x as [|t|t]; [reflexivity|exfalso..].
    - destruct (perform t) eqn:E; eapply Stuck; [eapply P_perform; eassumption|reflexivity|eapply P_throw; eassumption|reflexivity].
    - eapply Stuck; [eapply P_report; eassumption|reflexivity]. }
  assert (W0 : nth_error (p_workers s) 0 = Some WIdle).
  { assert (L := iv_w _ _ _ _ I). destruct (p_workers s) as [|x l]; [cbn in L; lia|]. cbn. rewrite (Idle x); [reflexivity|left; reflexivity]. }
  assert (Et : p_todo s = []). { destruct (p_todo s) as [|t r] eqn:E; [reflexivity|]. exfalso. eapply Stuck; [eapply P_get; eassumption|reflexivity]. }
  assert (Oth : forall c d (k' : call), held c = false -> held d = true -> nth_error (upd (p_calls s) c k') d = nth_error (p_calls s) d).
  { intros c d k' H1 H2. apply nth_upd_other. congruence. }
  assert (Sent : forall c k, nth_error (p_calls s) c = Some k -> held c = false -> k_sent k = k_n k).
  { intros c k Hc Hh. destruct (iv_calls _ _ _ _ I _ (nth_error_In _ _ Hc)) as [L _]. destruct (Nat.eq_dec (k_sent k) (k_n k)) as [E|E]; [exact E|]. exfalso.
    eapply Stuck; [eapply P_submit; [exact Hc|lia]|]. intros d Hd. apply Oth; assumption. }
  assert (Lost : p_lost s = []).
  { destruct (p_lost s) as [|t r] eqn:E; [reflexivity|]. exfalso. assert (Hl : In t (p_lost s)) by (rewrite E; left; reflexivity).
    assert (V : 0 < valid (p_calls s) t). { rewrite <- (iv_valid _ _ _ _ I). assert (P := iv_place _ _ _ _ I t). apply occ_in in Hl. lia. }
    apply (Hp t); [| |apply (iv_lost _ _ _ _ I); exact Hl].
    - apply (valid_task _ _ _ _ _ I). rewrite <- (iv_valid _ _ _ _ I) in *. assert (B := occ_sub_le _ _ _ _ t I). lia.
    - unfold valid in V. destruct (nth_error (p_calls s) (fst t)) as [k|] eqn:Ek; [|lia]. destruct (held (fst t)) eqn:Eh; [|reflexivity].
      destruct (Unt _ _ Ek Eh) as [U _]. rewrite U in V. destruct (Nat.ltb_spec (snd t) 0); lia. }
  assert (Z1 : forall f : worker -> nat, f WIdle = 0 -> sumf f (p_workers s) = 0).
  { intros f Hf. clear -Idle Hf. induction (p_workers s) as [|x l IH]; cbn; [reflexivity|]. rewrite (Idle x) by (left; reflexivity). rewrite IH by (intros; apply Idle; right; assumption). lia. }
  assert (L := iv_len _ _ _ _ I). rewrite Et, Lost, !Z1, (iv_taken _ _ _ _ I), (iv_sent _ _ _ _ I) in L by reflexivity. cbn [length] in L.
  destruct (p_done s) as [|t r] eqn:Ed.
  - intros c k Hc Hh. split; [eapply Sent; eassumption|]. rewrite <- (Sent _ _ Hc Hh). apply (sumf_le_eq k_taken k_sent (p_calls s)); [|cbn in L; lia|eapply nth_error_In; exact Hc].
    intros x Hx. destruct (iv_calls _ _ _ _ I _ Hx) as [_ L2]. apply In_nth_error in Hx. destruct Hx as [d Hd]. destruct (held d) eqn:Eh; [destruct (Unt _ _ Hd Eh); lia|rewrite (Sent _ _ Hd Eh); exact L2].
  - intros c k Hc Hh. split; [eapply Sent; eassumption|]. destruct (iv_calls _ _ _ _ I _ (nth_error_In _ _ Hc)) as [_ L2]. destruct (Nat.eq_dec (k_taken k) (k_n k)) as [E|E]; [exact E|]. exfalso.
    eapply Stuck; [eapply P_token; [exact Hc|eapply Sent; eassumption|lia|exact Ed]|]. intros d Hd. apply Oth; assumption.
Qed.
(** No deadlock, for any number of concurrent calls whose tasks do not throw, on at least one worker: a state in which
    nothing can happen any more is one in which every call has returned. *)
Theorem C33_no_deadlock : forall w ns n s, prun R perform n (pinit R w ns) s -> 1 <= w -> (forall t, is_task ns t -> perform t <> None) ->
  (forall s', ~ pstep R perform s s') -> forall k, In k (p_calls s) -> returned k.
Proof.
  intros w ns n s H Hw Hp Stuck k Hk. apply In_nth_error in Hk. destruct Hk as [c Hk].
  apply (stuck_held (fun _ => false) w ns n s H Hw) with (c := c); auto; [intros; discriminate|]. intros s' Hs _. exact (Stuck _ Hs).
Qed.

(** Every run is finite: at most five steps per task. *)
Definition pcost (s : pstate) : nat :=
  5 * (sumf k_n (p_calls s) - sumf k_sent (p_calls s)) + 4 * length (p_todo s) + 3 * sumf (fun x => length (has x)) (p_workers s)
  + 2 * sumf (fun x => length (did x)) (p_workers s) + length (p_done s).
Lemma pcost_step w ns s s' : pinv w ns s -> pstep R perform s s' -> pcost s' < pcost s.
Proof.
  intros I H. assert (K : sumf k_sent (p_calls s) <= sumf k_n (p_calls s)) by (apply sumf_le; intros k Hk; apply (iv_calls _ _ _ _ I _ Hk)).
  assert (I' := pinv_step _ _ _ _ _ (fun t H => H) I H). assert (K' : sumf k_sent (p_calls s') <= sumf k_n (p_calls s')) by (apply sumf_le; intros k Hk; apply (iv_calls _ _ _ _ I' _ Hk)).
  clear I I'. unfold pcost.
  destruct H as [s c k Hc L|s wi t r Hw Ht|s wi t v Hw Hp|s wi t Hw Hp|s wi t Hw|s c k t r Hc Hs Ht Hd]; cbn [p_calls p_todo p_workers p_done] in *.
  - assert (E1 := sumf_upd k_sent _ _ _ (MkCall (k_n k) (S (k_sent k)) (k_taken k)) Hc). assert (E2 := sumf_upd k_n _ _ _ (MkCall (k_n k) (S (k_sent k)) (k_taken k)) Hc).
    cbn [k_sent k_n] in *. rewrite app_length. cbn [length]. lia.
  - assert (E1 := sumf_upd (fun x => length (has x)) _ _ _ (WHas t) Hw). assert (E2 := sumf_upd (fun x => length (did x)) _ _ _ (WHas t) Hw). cbn [has did length] in *. rewrite Ht. cbn [length]. lia.
  - assert (E1 := sumf_upd (fun x => length (has x)) _ _ _ (WDid t) Hw). assert (E2 := sumf_upd (fun x => length (did x)) _ _ _ (WDid t) Hw). cbn [has did length] in *. lia.
  - assert (E1 := sumf_upd (fun x => length (has x)) _ _ _ WIdle Hw). assert (E2 := sumf_upd (fun x => length (did x)) _ _ _ WIdle Hw). cbn [has did length] in *. lia.
  - assert (E1 := sumf_upd (fun x => length (has x)) _ _ _ WIdle Hw). assert (E2 := sumf_upd (fun x => length (did x)) _ _ _ WIdle Hw). cbn [has did length] in *. rewrite app_length. cbn [length]. lia.
  - assert (E1 := sumf_upd k_sent _ _ _ (MkCall (k_n k) (k_sent k) (S (k_taken k))) Hc). assert (E2 := sumf_upd k_n _ _ _ (MkCall (k_n k) (k_sent k) (S (k_taken k))) Hc).
    cbn [k_sent k_n] in *. rewrite Hd. cbn [length]. lia.
Qed.
Theorem C33_runs_finite : forall w ns n s, prun R perform n (pinit R w ns) s -> n <= 5 * sumf (fun x => x) ns.
Proof.
  intros w ns n s H.
  assert (G : n + pcost s <= pcost (pinit R w ns)).
  { remember (pinit R w ns) as s0 eqn:E0. induction H as [s|n s1 s2 s3 H IH Hs]; [lia|]. specialize (IH E0).
    assert (pcost s3 < pcost s2); [|lia]. eapply pcost_step; [|exact Hs]. subst s1. eapply pinv_run; [apply pinv_init|exact H]. }
  assert (E : pcost (pinit R w ns) = 5 * sumf (fun x => x) ns).
  { unfold pcost. cbn [pinit p_calls p_todo p_workers p_done length]. rewrite !sumf_repeat by reflexivity.
    assert (A : sumf k_n (map (fun n => MkCall n 0 0) ns) = sumf (fun x => x) ns) by (clear; induction ns; cbn in *; lia).
    assert (B : sumf k_sent (map (fun n => MkCall n 0 0) ns) = 0) by (clear; induction ns; cbn in *; lia). lia. }
  lia.
Qed.

(** C34: a single call one of whose tasks throws never returns, whatever the schedule; *)
Theorem C34_never_returns : forall w n m s i, prun R perform m (pinit R w [n]) s -> i < n -> perform (0, i) = None ->
  forall k, In k (p_calls s) -> ~ returned k.
Proof.
  intros w n m s i H Li Hi k Hk Hr. destruct (all_returned _ _ _ _ H) as (_ & _ & C).
  { assert (I := pinv_run _ _ _ _ _ (pinv_init _ w [n]) H). assert (E := iv_ns _ _ _ _ I). intros k0 Hk0.
    destruct (p_calls s) as [|a [|b l]]; cbn in E; try discriminate. destruct Hk as [<-|[]]. destruct Hk0 as [<-|[]]. exact Hr. }
  destruct (C (0, i)) as (_ & v & Hv & _); [exists n; auto|]. congruence.
Qed.
(** and it ends, after at most 5n steps (C33_runs_finite), in a state where every worker is idle, every task has been
    executed, and the caller waits for a completion that will never come. *)
Theorem C34_waits_for_ever : forall w n m s, prun R perform m (pinit R w [n]) s -> 1 <= w -> (exists i, i < n /\ perform (0, i) = None) ->
  (forall s', ~ pstep R perform s s') ->
  idle s /\ exists k, p_calls s = [k] /\ k_sent k = n /\ k_taken k < n /\ Permutation (p_exec s) (map (fun i => (0, i)) (seq 0 n)).
Proof.
  intros w n m s H Hw (i & Li & Hi) Stuck. assert (I := pinv_run _ _ _ _ _ (pinv_init _ w [n]) H).
  assert (E := iv_ns _ _ _ _ I). destruct (p_calls s) as [|k [|b l]] eqn:Ec; cbn in E; try discriminate. injection E as E.
  assert (Hk : In k (p_calls s)) by (rewrite Ec; left; reflexivity).
  assert (NR := C34_never_returns _ _ _ _ _ H Li Hi k Hk).
  destruct (iv_calls _ _ _ _ I _ Hk) as [L1 L2].
  assert (Sent : k_sent k = n).
  { destruct (Nat.eq_dec (k_sent k) n) as [X|X]; [exact X|]. exfalso. eapply Stuck. eapply (P_submit _ _ _ 0); [rewrite Ec; reflexivity|lia]. }
  assert (Taken : k_taken k < n). { destruct (Nat.eq_dec (k_taken k) n) as [X|X]; [|lia]. exfalso. apply NR. split; congruence. }
  assert (Idle : forall x, In x (p_workers s) -> x = WIdle).
  { intros x Hx. apply In_nth_error in Hx. destruct Hx as [j Hx]. destruct x as [|t|t]; [reflexivity|exfalso..].
    - destruct (perform t) eqn:Ep; eapply Stuck; [eapply P_perform|eapply P_throw]; eassumption.
    - eapply Stuck. eapply P_report. eassumption. }
  assert (W0 : nth_error (p_workers s) 0 = Some WIdle).
  { assert (L := iv_w _ _ _ _ I). destruct (p_workers s) as [|x l]; [cbn in L; lia|]. cbn. rewrite (Idle x); [reflexivity|left; reflexivity]. }
  assert (Et : p_todo s = []). { destruct (p_todo s) as [|t r] eqn:E'; [reflexivity|]. exfalso. eapply Stuck. eapply P_get; eassumption. }
  assert (Ed : p_done s = []). { destruct (p_done s) as [|t r] eqn:E'; [reflexivity|]. exfalso. eapply Stuck. eapply (P_token _ _ _ 0); [rewrite Ec; reflexivity|congruence|lia|exact E']. }
  split; [split; [exact Et|split; [exact Ed|exact Idle]]|]. exists k. split; [reflexivity|]. split; [exact Sent|]. split; [exact Taken|].
  destruct (C33_at_most_once _ _ _ _ H) as (N & Hin & _). apply NoDup_Permutation; [exact N| |].
  - apply FinFun.Injective_map_NoDup; [intros x y X; congruence|apply seq_NoDup].
  - intros t. split; intro Ht.
    + apply Hin in Ht. destruct t as [a j]. destruct Ht as (n' & Hn & Lj). cbn [fst snd] in *. destruct a as [|[|a]]; cbn in Hn; [|discriminate..]. injection Hn as <-.
      apply in_map_iff. exists j. split; [reflexivity|apply in_seq; lia].
    + apply in_map_iff in Ht. destruct Ht as (j & <- & Hj). apply in_seq in Hj. apply occ_in.
      assert (V1 : occ (p_sub s) (0, j) = 1).
      { rewrite (iv_valid _ _ _ _ I). unfold valid. rewrite Ec. cbn [fst snd nth_error]. rewrite Sent. destruct (Nat.ltb_spec j n); [reflexivity|lia]. }
      assert (P := iv_place _ _ _ _ I (0, j)). rewrite Et, Ed in P. cbn [count_occ] in P. rewrite (iv_exec _ _ _ _ I), (iv_writes _ _ _ _ I), Ed. cbn [count_occ].
      assert (Z1 : sumf (fun x => occ (has x) (0, j)) (p_workers s) = 0).
      { clear -Idle. induction (p_workers s) as [|x l IH]; cbn; [reflexivity|]. rewrite (Idle x) by (left; reflexivity). rewrite IH by (intros; apply Idle; right; assumption). reflexivity. }
      lia.
Qed.

Lemma prun_next n (s1 s2 s3 s3' : pstate) : prun R perform n s1 s2 -> pstep R perform s2 s3 -> s3 = s3' -> prun R perform (S n) s1 s3'.
Proof. intros H1 H2 <-. eapply prun_cons; eassumption. Qed.

(** C35: what concurrent calls can rely on: once all of them have returned, every result is in its place. *)
Theorem C35_all_returned : forall w ns n s, prun R perform n (pinit R w ns) s -> (forall k, In k (p_calls s) -> returned k) ->
  idle s /\ forall t, is_task ns t -> count_occ tdec (p_exec s) t = 1 /\ exists v, perform t = Some v /\ last_write R t (p_writes s) = Some v.
Proof. intros w ns n s H Hr. destruct (all_returned _ _ _ _ H Hr) as (A & _ & B). split; assumption. Qed.

(** But a single call may return without its results: two concurrent calls with one task each, on a pool of any size. The
    result even arrives later, through a pointer into the vector that was already returned. *)
Theorem C35_early_return : forall w v0 v1, 1 <= w -> perform (0, 0) = Some v0 -> perform (1, 0) = Some v1 ->
  exists n s k m s', prun R perform n (pinit R w [1; 1]) s /\ nth_error (p_calls s) 1 = Some k /\ returned k /\ last_write R (1, 0) (p_writes s) = None /\
    prun R perform m s s' /\ last_write R (1, 0) (p_writes s') = Some v1.
Proof.
  intros w v0 v1 Hw H0 H1. destruct w as [|w]; [lia|].
  exists 6. eexists. eexists. exists 2. eexists. split.
  - eapply prun_next; [eapply prun_next; [eapply prun_next; [eapply prun_next; [eapply prun_next; [eapply prun_next; [apply prun_nil|eapply (P_submit _ _ _ 0); [reflexivity|cbn; lia]|cbn; reflexivity]|eapply (P_submit _ _ _ 1); [reflexivity|cbn; lia]|cbn; reflexivity]|eapply (P_get _ _ _ 0); reflexivity|cbn; reflexivity]|eapply (P_perform _ _ _ 0); [reflexivity|exact H0]|cbn; reflexivity]|eapply (P_report _ _ _ 0); reflexivity|cbn; reflexivity]|eapply (P_token _ _ _ 1); [reflexivity|reflexivity|cbn; lia|reflexivity]|cbn; reflexivity].
  - split; [reflexivity|]. split; [split; reflexivity|]. split; [reflexivity|]. split.
    + eapply prun_next; [eapply prun_next; [apply prun_nil|eapply (P_get _ _ _ 0); reflexivity|cbn; reflexivity]|eapply (P_perform _ _ _ 0); [reflexivity|exact H1]|cbn; reflexivity].
    + reflexivity.
Qed.
End C33.
Print Assumptions C33_at_most_once.
Print Assumptions C33_results.
Print Assumptions C33_no_deadlock.
Print Assumptions C33_runs_finite.
Print Assumptions C34_never_returns.
Print Assumptions C34_waits_for_ever.
Print Assumptions C35_all_returned.
Print Assumptions C35_early_return.
(** Two tasks on two workers, finishing out of order; and a batch with a throwing task. *)
Example C33_witness : exists m s k, prun nat (fun t => Some (10 + snd t)) m (pinit nat 2 [2]) s /\ p_calls nat s = [k] /\ returned k /\ p_exec nat s = [(0, 1); (0, 0)] /\
  map (fun i => last_write nat (0, i) (p_writes nat s)) [0; 1] = [Some 10; Some 11].
Proof.
  exists 10. eexists. eexists. split.
  - eapply prun_next; [eapply prun_next; [eapply prun_next; [eapply prun_next; [eapply prun_next; [eapply prun_next; [eapply prun_next; [eapply prun_next; [eapply prun_next; [eapply prun_next; [apply prun_nil|eapply (P_submit _ _ _ 0); [reflexivity|cbn; lia]|cbn; reflexivity]|eapply (P_get _ _ _ 0); reflexivity|cbn; reflexivity]|eapply (P_submit _ _ _ 0); [reflexivity|cbn; lia]|cbn; reflexivity]|eapply (P_get _ _ _ 1); reflexivity|cbn; reflexivity]|eapply (P_perform _ _ _ 1); reflexivity|cbn; reflexivity]|eapply (P_report _ _ _ 1); reflexivity|cbn; reflexivity]|eapply (P_token _ _ _ 0); [reflexivity|reflexivity|cbn; lia|reflexivity]|cbn; reflexivity]|eapply (P_perform _ _ _ 0); reflexivity|cbn; reflexivity]|eapply (P_report _ _ _ 0); reflexivity|cbn; reflexivity]|eapply (P_token _ _ _ 0); [reflexivity|reflexivity|cbn; lia|reflexivity]|cbn; reflexivity].
  - split; [reflexivity|]. repeat split.
Qed.
Example C34_witness : exists m s, prun nat (fun _ => None) m (pinit nat 2 [1]) s /\ p_exec nat s = [(0, 0)] /\ p_workers nat s = [WIdle; WIdle].
Proof.
  exists 3. eexists. split.
  - eapply prun_next; [eapply prun_next; [eapply prun_next; [apply prun_nil|eapply (P_submit _ _ _ 0); [reflexivity|cbn; lia]|cbn; reflexivity]|eapply (P_get _ _ _ 0); reflexivity|cbn; reflexivity]|eapply (P_throw _ _ _ 0); reflexivity|cbn; reflexivity].
  - split; reflexivity.
Qed.
