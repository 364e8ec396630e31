(** C22: the text form of individuals and populations. *)
From Coq Require Import Ascii String DecimalString DecimalNat.
From Verif Require Import Base Num Random Params CompositeProofs Mutators Individual LibEnv.
Local Open Scope list_scope.

(** a word: non-empty, without white space *)
Definition word (t : text) : Prop := t <> [] /\ Forall (fun a => is_space a = false) t.

Lemma take_word_app w r : Forall (fun a => is_space a = false) w ->
  (r = [] \/ exists a r', r = a :: r' /\ is_space a = true) -> take_word (w ++ r) = (w, r).
Proof.
  intros Hw Hr. induction Hw as [|a w Ha Hw IH]; cbn [app take_word].
  - destruct Hr as [->|(a & r' & -> & Ha)]; [reflexivity|]. cbn. rewrite Ha. reflexivity.
  - rewrite Ha, IH. reflexivity.
Qed.
Lemma skip_word w r : word w -> skip_spaces (w ++ r) = w ++ r.
Proof. intros [Hn Hw]. destruct w as [|a w]; [contradiction|]. inversion Hw as [|? ? Ha _]; subst. cbn. rewrite Ha. reflexivity. Qed.

(** reading a word that is preceded by white space [sp] and followed by white space or the end *)
Lemma next_word_spec sp w r : Forall (fun a => is_space a = true) sp -> word w ->
  (r = [] \/ exists a r', r = a :: r' /\ is_space a = true) -> next_word (sp ++ w ++ r) = (w, r).
Proof.
  intros Hsp Hw Hr. unfold next_word. induction Hsp as [|a sp Ha Hsp IH]; cbn [app skip_spaces].
  - rewrite skip_word by exact Hw. apply take_word_app; [exact (proj2 Hw)|exact Hr].
  - rewrite Ha. exact IH.
Qed.

Lemma bits_word c : c <> [] -> word (map bit_char c).
Proof.
  intro H. split; [destruct c; [contradiction|discriminate]|]. apply Forall_forall. intros a Ha.
  apply in_map_iff in Ha as (b & <- & _). destruct b; reflexivity.
Qed.
Lemma parse_bits_show c : parse_bits (map bit_char c) = Ok c.
Proof. induction c as [|[] c IH]; [reflexivity| |]; cbn; rewrite IH; reflexivity. Qed.

Lemma parse_bits_bad t : (exists a, In a t /\ a <> "0"%char /\ a <> "1"%char) <-> parse_bits t = Throw LogicError.
Proof.
  induction t as [|a t IH]; cbn [parse_bits]; [split; [intros (x & [] & _)|discriminate]|].
  assert (T : forall c, c = "0"%char \/ c = "1"%char ->
    ((exists a, In a (c :: t) /\ a <> "0"%char /\ a <> "1"%char) <-> exists a, In a t /\ a <> "0"%char /\ a <> "1"%char)).
  { intros c Hc. split; intros (x & Hx & H0 & H1).
    - destruct Hx as [<-|Hx]; [destruct Hc; contradiction|eauto].
    - exists x. split; [right; exact Hx|auto]. }
  destruct (Ascii.eqb_spec a "1"%char) as [->|N1].
  { rewrite T by auto. rewrite IH. destruct (parse_bits t); cbn; split; congruence. }
  destruct (Ascii.eqb_spec a "0"%char) as [->|N0].
  { rewrite T by auto. rewrite IH. destruct (parse_bits t); cbn; split; congruence. }
  split; [reflexivity|]. intros _. exists a. split; [left; reflexivity|auto].
Qed.

Lemma Forall2_length {A B} (P : A -> B -> Prop) l1 l2 : Forall2 P l1 l2 -> length l1 = length l2.
Proof. induction 1; cbn; congruence. Qed.

Section Text.
Variable E : env.
(** how doubles are printed and read back: any printer of words *)
Variable show : dbl -> text.
Variable parse : text -> dbl * text.
(** The value a printed number is read back as: printed, after white space and before white space, [f] is read as [v] and
    what follows it stays in the stream. *)
Definition reads (f v : dbl) : Prop := forall sp a rest, Forall (fun a => is_space a = true) sp -> is_space a = true ->
  parse (sp ++ show f ++ a :: rest) = (v, a :: rest).
(** A printed number that cannot be read back: an infinity or a NaN, printed as inf and nan, is not accepted by istream >> double. *)
Definition unreadable (f : dbl) : Prop := forall sp a rest, Forall (fun a => is_space a = true) sp -> is_space a = true ->
  parse (sp ++ show f ++ a :: rest) = (d_ofZ 0, []).

Lemma read_written_gen i t j rest v left_ : write_ind E show i = Ok t -> i_chr E i <> [] ->
  (forall sp, Forall (fun a => is_space a = true) sp -> parse (sp ++ show (i_fit E i) ++ newline :: rest) = (v, left_)) ->
  (forall sp, Forall (fun a => is_space a = true) sp ->
   read_ind E parse j (sp ++ t ++ rest) =
    (if negb (Nat.eqb (length (i_chr E i)) (length (i_chr E j))) then Throw LogicError
     else let! j := set_fitness E (MkInd E (i_par E j) (i_chr E i) (i_has E j) (i_fit E j) (i_times E j)) v in
        let (q, o) := e_dec E (i_par E j) (i_chr E j) in
        let! _ := o in Ok (MkInd E q (i_chr E j) (i_has E j) (i_fit E j) (i_times E j)), left_)) /\ i_has E i = true.
Proof.
  intros Hw Hc Hp. unfold write_ind, get_fitness in Hw. destruct (i_has E i) eqn:Hf; cbn [bind] in Hw; [|discriminate].
  split; [|reflexivity]. intros sp Hsp.
  assert (Et : sp ++ t ++ rest = sp ++ of_string "Chromosome:" ++ tab :: map bit_char (i_chr E i) ++ tab :: of_string "Fitness:" ++
      tab :: show (i_fit E i) ++ newline :: rest).
  { injection Hw as <-. cbn [app of_string list_ascii_of_string]. repeat (rewrite <- app_assoc || rewrite <- app_comm_cons). reflexivity. }
  rewrite Et. clear Et Hw. unfold read_ind.
  rewrite next_word_spec; [|exact Hsp|split; [discriminate|repeat constructor]|right; eexists _, _; split; [reflexivity|reflexivity]].
  change (tab :: map bit_char (i_chr E i) ++ ?x) with ([tab] ++ map bit_char (i_chr E i) ++ x).
  rewrite next_word_spec; [|repeat constructor|apply bits_word; exact Hc|right; eexists _, _; split; [reflexivity|reflexivity]].
  change (tab :: of_string "Fitness:" ++ ?x) with ([tab] ++ of_string "Fitness:" ++ x).
  rewrite next_word_spec; [|repeat constructor|split; [discriminate|repeat constructor]|right; eexists _, _; split; [reflexivity|reflexivity]].
  change (tab :: show (i_fit E i) ++ ?x) with ([tab] ++ show (i_fit E i) ++ x).
  rewrite Hp by repeat constructor.
  rewrite map_length. rewrite parse_bits_show. cbn [app bind]. reflexivity.
Qed.
Lemma read_written i t j rest v : write_ind E show i = Ok t -> i_chr E i <> [] -> reads (i_fit E i) v ->
  (forall sp, Forall (fun a => is_space a = true) sp ->
   read_ind E parse j (sp ++ t ++ rest) =
    (if negb (Nat.eqb (length (i_chr E i)) (length (i_chr E j))) then Throw LogicError
     else let! j := set_fitness E (MkInd E (i_par E j) (i_chr E i) (i_has E j) (i_fit E j) (i_times E j)) v in
        let (q, o) := e_dec E (i_par E j) (i_chr E j) in
        let! _ := o in Ok (MkInd E q (i_chr E j) (i_has E j) (i_fit E j) (i_times E j)), newline :: rest)) /\ i_has E i = true.
Proof. intros Hw Hc Hr. apply read_written_gen; [exact Hw|exact Hc|]. intros sp Hsp. apply Hr; [exact Hsp|reflexivity]. Qed.

(** Round trip. [j]: the individual read into; it must have the same chromosome size and accept the chromosome. *)
Theorem C22_roundtrip : forall i t j rest q v,
  write_ind E show i = Ok t -> reads (i_fit E i) v ->
  i_chr E i <> [] -> length (i_chr E j) = length (i_chr E i) -> e_dec E (i_par E j) (i_chr E i) = (q, Ok tt) ->
  d_ltb v (d_ofZ 0) = false ->
  exists k, read_ind E parse j (t ++ rest) = (Ok k, newline :: rest) /\
    i_chr E k = i_chr E i /\ i_par E k = q /\ i_has E k = true /\ i_fit E k = v.
Proof.
  intros i t j rest q v Hw Hr Hc Hl Hd Hf. destruct (read_written i t j rest v Hw Hc Hr) as [H _].
  specialize (H [] (Forall_nil _)). cbn [app] in H. rewrite H. rewrite Hl, Nat.eqb_refl. cbn [negb].
  unfold set_fitness. rewrite Hf. cbn [bind i_par i_chr]. rewrite Hd. cbn [bind].
  eexists. split; [reflexivity|]. auto.
Qed.

(** An individual without fitness cannot be written. *)
Theorem C22_write : forall i, (exists t, write_ind E show i = Ok t) <-> i_has E i = true.
Proof.
  intro i. unfold write_ind, get_fitness. destruct (i_has E i); cbn; split; intro H; try reflexivity; try discriminate; [eauto|].
  destruct H; discriminate.
Qed.

(** Wrong length, wrong characters, for any text whatsoever: [cw] is its second word. *)
Theorem C22_rejects : forall j t cw,
  cw = fst (next_word (snd (next_word t))) ->
  (length cw <> length (i_chr E j) \/ exists a, In a cw /\ a <> "0"%char /\ a <> "1"%char) ->
  fst (read_ind E parse j t) = Throw LogicError.
Proof.
  intros j t cw Hcw Hbad. unfold read_ind. destruct (next_word t) as [x t1]. cbn [snd] in Hcw.
  destruct (next_word t1) as [cw' t2]. cbn [fst] in Hcw. subst cw'.
  destruct (next_word t2) as [y t3]. destruct (parse t3) as [fv t4]. cbn [fst].
  destruct (Nat.eqb_spec (length cw) (length (i_chr E j))) as [El|]; [|reflexivity]. cbn [negb].
  destruct Hbad as [Hb|Hb]; [contradiction|]. apply parse_bits_bad in Hb. rewrite Hb. reflexivity.
Qed.

(** The empty chromosome does not survive: whatever it is read into, unless that has a chromosome of length 8
    (the word "Fitness:" is taken for the chromosome, and is then rejected as well). *)
Theorem C22_empty_refuted : forall i t j rest, write_ind E show i = Ok t -> i_chr E i = [] ->
  fst (read_ind E parse j (t ++ rest)) = Throw LogicError.
Proof.
  intros i t j rest Hw Hc. eapply C22_rejects with (cw := of_string "Fitness:").
  - unfold write_ind, get_fitness in Hw. destruct (i_has E i); cbn [bind] in Hw; [|discriminate]. injection Hw as <-.
    rewrite Hc. reflexivity.
  - right. exists "F"%char. split; [left; reflexivity|]. split; discriminate.
Qed.

(** ** whole populations *)

Lemma word_app_space w r : word w -> forall sp a, Forall (fun a => is_space a = true) sp -> is_space a = true ->
  next_word (sp ++ w ++ a :: r) = (w, a :: r).
Proof. intros Hw sp a Hsp Ha. apply next_word_spec; [exact Hsp|exact Hw|right; eauto]. Qed.

(** a count that is followed by something that is no digit *)
Lemma digits_show r : (match r with [] => true | a :: _ => negb (is_digit a) end = true) -> forall u acc,
  take_digits (Z.of_nat acc) (list_ascii_of_string (NilEmpty.string_of_uint u) ++ r) = (Z.of_nat (Nat.of_uint_acc u acc), r).
Proof.
  intro Hr. induction u as [|u IH|u IH|u IH|u IH|u IH|u IH|u IH|u IH|u IH|u IH]; intro acc; cbn [NilEmpty.string_of_uint list_ascii_of_string app];
    [cbn [Nat.of_uint_acc]; destruct r as [|a r]; [reflexivity|]; cbn [take_digits]; apply negb_true_iff in Hr; rewrite Hr; reflexivity|..];
    cbn [take_digits Nat.of_uint_acc]; change (is_digit _) with true; cbv iota;
    match goal with |- take_digits ?z _ = (Z.of_nat (Nat.of_uint_acc _ ?m), _) => replace z with (Z.of_nat m); [apply IH|] end;
    rewrite Nat.tail_mul_spec; match goal with |- context [nat_of_ascii ?c] => let x := eval vm_compute in (nat_of_ascii c) in change (nat_of_ascii c) with x end; lia.
Qed.
Lemma show_nat_head n : exists a r, show_nat n = a :: r /\ is_digit a = true.
Proof.
  unfold show_nat. generalize (Nat.to_uint n); intro u. unfold NilZero.string_of_uint. destruct u; cbn; eexists _, _; split; reflexivity.
Qed.
Lemma next_count_show sp n r : Forall (fun a => is_space a = true) sp -> (Z.of_nat n < 2 ^ 64)%Z -> (match r with [] => true | a :: _ => negb (is_digit a) end = true) ->
  next_count (sp ++ show_nat n ++ r) = (Z.of_nat n, r).
Proof.
  intros Hsp Hn Hr. unfold next_count.
  assert (D : forall t, skip_spaces (sp ++ t) = skip_spaces t) by (intro t; induction Hsp as [|a sp Ha Hsp IH]; cbn [app skip_spaces]; [reflexivity|rewrite Ha; exact IH]).
  rewrite D. destruct (show_nat_head n) as (a & w & Ew & Da).
  assert (Hd : forall a, is_digit a = true -> is_space a = false /\ Ascii.eqb a "-"%char = false /\ Ascii.eqb a "+"%char = false).
  { clear. intros [[] [] [] [] [] [] [] []]; vm_compute; intro H; try discriminate; auto. }
  destruct (Hd a Da) as (Sa & Ma & Pa).
  assert (Es : skip_spaces (show_nat n ++ r) = show_nat n ++ r) by (rewrite Ew; cbn [app skip_spaces]; rewrite Sa; reflexivity).
  rewrite Es. rewrite Ew at 1. cbn [app]. rewrite Ma, Pa. cbv iota. rewrite Ew at 1. cbn [app]. rewrite Da.
  assert (T : take_digits 0%Z (show_nat n ++ r) = (Z.of_nat n, r)).
  { unfold show_nat. pose proof (Unsigned.of_to n) as G. unfold NilZero.string_of_uint. destruct (Nat.to_uint n) as [|u|u|u|u|u|u|u|u|u|u] eqn:Eu.
    1:{ cbn in G. subst n. discriminate Eu. }
    all: rewrite <- Eu in *; rewrite <- G at 2; exact (digits_show r Hr (Nat.to_uint n) 0). }
  rewrite T. destruct (Z.ltb_spec (Z.of_nat n) (2 ^ 64)%Z); [reflexivity|lia].
Qed.

(** the fields of an individual that the file carries, decoded by the parameters of the individual read into *)
Definition restored (i j k : indiv E) : Prop :=
  i_chr E k = i_chr E i /\ e_dec E (i_par E j) (i_chr E i) = (i_par E k, Ok tt) /\
  i_has E k = true /\ reads (i_fit E i) (i_fit E k).

Definition readable (i j : indiv E) : Prop :=
  i_chr E i <> [] /\ length (i_chr E j) = length (i_chr E i) /\
  (exists q, e_dec E (i_par E j) (i_chr E i) = (q, Ok tt) /\ e_chk E q = Ok true) /\
  exists v, reads (i_fit E i) v /\ d_ltb v (d_ofZ 0) = false.

Lemma read_individuals_spec pop : forall ts pop2 rest sp, mapM (write_ind E show) pop = Ok ts -> Forall2 readable pop pop2 ->
  Forall (fun a => is_space a = true) sp ->
  exists ks t', read_individuals E parse pop2 (sp ++ concat ts ++ rest) = (Ok ks, t') /\
    length ks = length pop /\
    (forall n i j k, nth_error pop n = Some i -> nth_error pop2 n = Some j -> nth_error ks n = Some k -> restored i j k).
Proof.
  induction pop as [|i pop IH]; intros ts pop2 rest sp Hw HF Hsp; cbn [mapM] in Hw.
  - injection Hw as <-. inversion HF; subst. cbn. exists [], (sp ++ rest). split; [reflexivity|]. split; [reflexivity|].
    intros [|n]; discriminate.
  - apply bind_ok in Hw as (t & Ht & Hw). apply bind_ok in Hw as (ts' & Hts & Hw). injection Hw as <-.
    inversion HF as [|? j ? pop2' (Hc & Hl & (q & Hd & Hk) & (v & Hv & Hf)) HF']; subst.
    destruct (read_written i t j (concat ts' ++ rest) v Ht Hc Hv) as [H _]. specialize (H sp Hsp).
    cbn [read_individuals concat]. rewrite <- app_assoc, H. rewrite Hl, Nat.eqb_refl. cbn [negb].
    unfold set_fitness. rewrite Hf. cbn [bind i_par i_chr]. rewrite Hd. cbn [bind i_par]. rewrite Hk.
    destruct (IH ts' pop2' rest [newline] Hts HF' ltac:(repeat constructor)) as (ks & t' & Hr & Hlen & Hn).
    cbn [app] in Hr. rewrite Hr. cbn [bind].
    eexists (_ :: ks), t'. split; [reflexivity|]. split; [cbn; congruence|].
    intros [|n] a b k Ha Hb Hk'; cbn in Ha, Hb, Hk'; [|eapply Hn; eauto].
    injection Ha as <-. injection Hb as <-. injection Hk' as <-. split; [reflexivity|]. cbn. auto.
Qed.

(** A written population file restores every individual in place. *)
Theorem C22_population_roundtrip : forall pop t pop2,
  write_population E show pop = Ok t -> Forall2 readable pop pop2 ->
  (Z.of_nat (length pop) < 2 ^ 64)%Z -> Forall (fun i => (Z.of_nat (length (i_chr E i)) < 2 ^ 64)%Z) pop ->
  exists ks, read_population E parse pop2 t = Ok ks /\ length ks = length pop /\
    (forall n i j k, nth_error pop n = Some i -> nth_error pop2 n = Some j -> nth_error ks n = Some k -> restored i j k).
Proof.
  intros pop t pop2 Hw HF Sp Sc. unfold write_population in Hw.
  apply bind_ok in Hw as (first & Hfirst & Hw). apply bind_ok in Hw as (ts & Hts & Hw).
  assert (Et : t = [] ++ of_string "Population_size:" ++ " "%char :: newline :: show_nat (length pop) ++ newline ::
      of_string "Chromosome_size:" ++ " "%char :: newline :: show_nat (length (i_chr E first)) ++ newline :: concat ts).
  { injection Hw as <-. reflexivity. }
  rewrite Et. clear Et Hw. unfold read_population.
  rewrite word_app_space; [|split; [discriminate|repeat constructor]|repeat constructor|reflexivity].
  change (" "%char :: newline :: show_nat (length pop) ++ ?x) with ([" "%char; newline] ++ show_nat (length pop) ++ x).
  rewrite next_count_show; [|repeat constructor|exact Sp|reflexivity].
  change (newline :: of_string "Chromosome_size:" ++ ?x) with ([newline] ++ of_string "Chromosome_size:" ++ x).
  rewrite word_app_space; [|split; [discriminate|repeat constructor]|repeat constructor|reflexivity].
  change (" "%char :: newline :: show_nat (length (i_chr E first)) ++ ?x) with ([" "%char; newline] ++ show_nat (length (i_chr E first)) ++ x).
  assert (Sf : (Z.of_nat (length (i_chr E first)) < 2 ^ 64)%Z) by (unfold at_ in Hfirst; destruct pop as [|i0 pop0]; [discriminate|]; cbn in Hfirst; injection Hfirst as <-; exact (Forall_inv Sc)).
  rewrite next_count_show; [|repeat constructor|exact Sf|reflexivity].
  unfold at_ in Hfirst. destruct pop as [|i pop]; [discriminate|]. cbn in Hfirst. injection Hfirst as <-.
  inversion HF as [|? j ? pop2' Hij HF']; subst. cbn [at_ nth_error bind].
  pose proof (Forall2_length _ _ _ HF) as L. cbn [length] in L |- *.
  destruct Hij as (_ & Hl & _). rewrite Hl, <- L, !Z.eqb_refl. cbn [andb negb].
  destruct (read_individuals_spec _ _ _ [] [newline] Hts HF ltac:(repeat constructor)) as (ks & t' & Hr & Hlen & Hn).
  cbn [app] in Hr. rewrite app_nil_r in Hr. rewrite Hr. cbn [fst]. exists ks. auto.
Qed.

(** Files made with other settings, and files holding an individual that violates the constraints, are rejected. *)
Lemma rejects_gen pop t first : nth_error pop 0 = Some first ->
  let w1 := snd (next_word t) in let w2 := snd (next_word (snd (next_count w1))) in
  (fst (next_count w1) <> Z.of_nat (length pop) \/ fst (next_count w2) <> Z.of_nat (length (i_chr E first))) ->
  read_population E parse pop t = Throw LogicError.
Proof.
  intros Hf w1 w2 Hb. unfold read_population.
  subst w1 w2. destruct (next_word t) as [a t1]. cbn [snd] in *. destruct (next_count t1) as [pw t2]. cbn [fst snd] in *.
  destruct (next_word t2) as [b t3]. cbn [snd] in Hb. destruct (next_count t3) as [cw t4]. cbn [fst] in Hb.
  unfold at_. rewrite Hf. cbn [bind].
  destruct (Z.eqb_spec (Z.of_nat (length pop)) pw), (Z.eqb_spec cw (Z.of_nat (length (i_chr E first)))); cbn; try reflexivity.
  exfalso. destruct Hb; congruence.
Qed.
(** [title], spaces, a count, and something else. *)
Definition white (t : text) : Prop := t <> [] /\ Forall (fun a => In a [" "; "009"; "010"; "011"; "012"; "013"]%char) t.
Lemma white_space t : white t -> Forall (fun a => is_space a = true) t /\ exists a r, t = a :: r /\ is_space a = true.
Proof.
  intros [N F]. assert (F' : Forall (fun a => is_space a = true) t). { eapply Forall_impl; [|exact F]. cbv beta. intros a H. cbn in H. repeat (destruct H as [<-|H]; [reflexivity|]). destruct H. }
  split; [exact F'|]. destruct t as [|a r]; [contradiction|]. inversion F'; subst. eauto.
Qed.
Lemma after_word w sp r : word w -> white sp -> next_word (w ++ sp ++ r) = (w, sp ++ r).
Proof. intros Hw Hs. destruct (white_space _ Hs) as [F (a & sp' & -> & Ha)]. apply (word_app_space w (sp' ++ r) Hw [] a); [constructor|exact Ha]. Qed.
(** The file of another population size: whatever follows the count. *)
Theorem C22_population_rejects : forall pop first title sp m rest, nth_error pop 0 = Some first -> word title -> white sp -> (Z.of_nat m < 2 ^ 64)%Z ->
  (match rest with [] => True | a :: _ => ~ In a ["0"; "1"; "2"; "3"; "4"; "5"; "6"; "7"; "8"; "9"]%char end) ->
  m <> length pop -> read_population E parse pop (title ++ sp ++ show_nat m ++ rest) = Throw LogicError.
Proof.
  intros pop first title sp m rest Hf Ht Hs Hm Hr Hne. apply (rejects_gen _ _ _ Hf). left. rewrite after_word by assumption. cbn [snd].
  rewrite next_count_show; [cbn; lia|apply white_space; exact Hs|exact Hm|]. destruct rest as [|a rest]; [reflexivity|]. clear - Hr. destruct a as [[] [] [] [] [] [] [] []]; vm_compute; try reflexivity; exfalso; apply Hr; cbn; auto 20.
Qed.
(** The file of another chromosome size. *)
Theorem C22_population_rejects_chromosome : forall pop first t1 sp1 m sp2 t2 sp3 c rest, nth_error pop 0 = Some first -> word t1 -> white sp1 -> (Z.of_nat m < 2 ^ 64)%Z -> white sp2 -> word t2 -> white sp3 -> (Z.of_nat c < 2 ^ 64)%Z ->
  (match rest with [] => True | a :: _ => ~ In a ["0"; "1"; "2"; "3"; "4"; "5"; "6"; "7"; "8"; "9"]%char end) ->
  c <> length (i_chr E first) -> read_population E parse pop (t1 ++ sp1 ++ show_nat m ++ sp2 ++ t2 ++ sp3 ++ show_nat c ++ rest) = Throw LogicError.
Proof.
  intros pop first t1 sp1 m sp2 t2 sp3 c rest Hf H1 Hs1 Hm Hs2 H2 Hs3 Hc Hr Hne. apply (rejects_gen _ _ _ Hf). right. rewrite after_word by assumption. cbn [snd].
  rewrite next_count_show; [cbn [snd]|apply white_space; exact Hs1|exact Hm|].
  2:{ destruct Hs2 as [N F]. destruct sp2 as [|a r]; [contradiction|]. apply Forall_inv in F. cbn in F. cbn [app]. repeat (destruct F as [<-|F]; [reflexivity|]). destruct F. }
  rewrite (next_word_spec sp2 t2 (sp3 ++ show_nat c ++ rest)); [cbn [snd]|apply white_space; exact Hs2|exact H2|right; destruct (white_space _ Hs3) as [_ (a & r & -> & Ha)]; eexists _, _; split; [reflexivity|exact Ha]].
  rewrite next_count_show; [cbn; lia|apply white_space; exact Hs3|exact Hc|]. destruct rest as [|a rest]; [reflexivity|]. clear - Hr. destruct a as [[] [] [] [] [] [] [] []]; vm_compute; try reflexivity; exfalso; apply Hr; cbn; auto 20.
Qed.
(** A file without a count. *)
Theorem C22_population_rejects_garbage : forall pop first title sp a rest, nth_error pop 0 = Some first -> word title -> white sp ->
  ~ In a ["0"; "1"; "2"; "3"; "4"; "5"; "6"; "7"; "8"; "9"; "+"; "-"; " "; "009"; "010"; "011"; "012"; "013"]%char ->
  read_population E parse pop (title ++ sp ++ a :: rest) = Throw LogicError.
Proof.
  intros pop first title sp a rest Hf Ht Hs Ha. apply (rejects_gen _ _ _ Hf). left. rewrite after_word by assumption. cbn [snd].
  assert (Hc : next_count (sp ++ a :: rest) = (0%Z, [])).
  { unfold next_count. destruct (white_space _ Hs) as [F _]. assert (D : forall t, skip_spaces (sp ++ t) = skip_spaces t) by (intro t; clear - F; induction F as [|b sp Hb F IH]; cbn [app skip_spaces]; [reflexivity|rewrite Hb; exact IH]).
    rewrite D. cbn [skip_spaces]. assert (G : is_space a = false /\ is_digit a = false /\ Ascii.eqb a "-"%char = false /\ Ascii.eqb a "+"%char = false).
    { clear - Ha. destruct a as [[] [] [] [] [] [] [] []]; vm_compute; auto; exfalso; apply Ha; cbn; auto 30. }
    destruct G as (-> & Gd & -> & ->). rewrite Gd. reflexivity. }
  rewrite Hc. cbn [fst]. destruct pop; [discriminate|]. cbn [length]. lia.
Qed.

(** Negative and too large counts are rejected as well; a plus sign is allowed. *)
Lemma no_digit r : (match r with [] => True | a :: _ => ~ In a ["0"; "1"; "2"; "3"; "4"; "5"; "6"; "7"; "8"; "9"]%char end) ->
  match r with [] => true | a :: _ => negb (is_digit a) end = true.
Proof. intro Hr. destruct r as [|a r]; [reflexivity|]. destruct a as [[] [] [] [] [] [] [] []]; vm_compute; try reflexivity; exfalso; apply Hr; cbn; auto 20. Qed.
Lemma take_show n r : match r with [] => true | a :: _ => negb (is_digit a) end = true -> take_digits 0%Z (show_nat n ++ r) = (Z.of_nat n, r).
Proof.
  intro Hr. unfold show_nat. pose proof (Unsigned.of_to n) as G. unfold NilZero.string_of_uint. destruct (Nat.to_uint n) as [|u|u|u|u|u|u|u|u|u|u] eqn:Eu.
  1:{ cbn in G. subst n. discriminate Eu. }
  all: rewrite <- Eu in *; rewrite <- G at 2; exact (digits_show r Hr (Nat.to_uint n) 0).
Qed.
Lemma skip_white sp t : white sp -> skip_spaces (sp ++ t) = skip_spaces t.
Proof. intro Hs. destruct (white_space _ Hs) as [F _]. clear Hs. induction F as [|b sp Hb F IH]; cbn [app skip_spaces]; [reflexivity|rewrite Hb; exact IH]. Qed.
Theorem C22_population_rejects_negative : forall pop first title sp m rest, nth_error pop 0 = Some first -> word title -> white sp ->
  (match rest with [] => True | a :: _ => ~ In a ["0"; "1"; "2"; "3"; "4"; "5"; "6"; "7"; "8"; "9"]%char end) ->
  (0 < Z.of_nat m)%Z -> (Z.of_nat m + Z.of_nat (length pop) < 2 ^ 64)%Z ->
  read_population E parse pop (title ++ sp ++ "-"%char :: show_nat m ++ rest) = Throw LogicError.
Proof.
  intros pop first title sp m rest Hf Ht Hs Hr H0 Hm. apply no_digit in Hr. apply (rejects_gen _ _ _ Hf). left. rewrite after_word by assumption. cbn [snd].
  unfold next_count. rewrite (skip_white _ _ Hs). change (skip_spaces ("-"%char :: show_nat m ++ rest)) with ("-"%char :: show_nat m ++ rest). cbv iota beta.
  change (Ascii.eqb "-"%char "-"%char) with true. cbv iota beta. pose proof (take_show m rest Hr) as T. destruct (show_nat_head m) as (a & w & Ew & Da).
  rewrite Ew in *. cbn [app] in *. rewrite Da, T. destruct (Z.ltb_spec (Z.of_nat m) (2 ^ 64)%Z); [|lia]. cbn [fst].
  rewrite Z.mod_opp_l_nz; [|lia|]; rewrite Z.mod_small by lia; lia.
Qed.
Theorem C22_population_rejects_large : forall pop first title sp m rest, nth_error pop 0 = Some first -> word title -> white sp ->
  (match rest with [] => True | a :: _ => ~ In a ["0"; "1"; "2"; "3"; "4"; "5"; "6"; "7"; "8"; "9"]%char end) ->
  (2 ^ 64 <= Z.of_nat m)%Z -> (Z.of_nat (length pop) < 2 ^ 64 - 1)%Z ->
  read_population E parse pop (title ++ sp ++ show_nat m ++ rest) = Throw LogicError.
Proof.
  intros pop first title sp m rest Hf Ht Hs Hr Hm Hp. apply no_digit in Hr. apply (rejects_gen _ _ _ Hf). left. rewrite after_word by assumption. cbn [snd].
  unfold next_count. rewrite (skip_white _ _ Hs). pose proof (take_show m rest Hr) as T. destruct (show_nat_head m) as (a & w & Ew & Da).
  assert (Hd : forall a, is_digit a = true -> is_space a = false /\ Ascii.eqb a "-"%char = false /\ Ascii.eqb a "+"%char = false).
  { clear. intros [[] [] [] [] [] [] [] []]; vm_compute; intro H; try discriminate; auto. }
  destruct (Hd a Da) as (Sa & Ma & Pa). rewrite Ew in *. cbn [app skip_spaces] in *. rewrite Sa, Ma, Pa. cbv iota beta. rewrite Da, T.
  destruct (Z.ltb_spec (Z.of_nat m) (2 ^ 64)%Z); [lia|]. cbn [fst]. lia.
Qed.
Theorem C22_population_plus : forall pop title sp m rest, word title -> white sp ->
  read_population E parse pop (title ++ sp ++ "+"%char :: show_nat m ++ rest) = read_population E parse pop (title ++ sp ++ show_nat m ++ rest).
Proof.
  intros pop title sp m rest Ht Hs. unfold read_population. rewrite !after_word by assumption.
  assert (C : next_count (sp ++ "+"%char :: show_nat m ++ rest) = next_count (sp ++ show_nat m ++ rest)).
  { unfold next_count. rewrite !(skip_white _ _ Hs). change (skip_spaces ("+"%char :: ?x)) with ("+"%char :: x). cbv iota beta.
    change (Ascii.eqb "+"%char "-"%char) with false. change (Ascii.eqb "+"%char "+"%char) with true. cbv iota beta.
    destruct (show_nat_head m) as (a & w & Ew & Da).
    assert (Hd : forall a, is_digit a = true -> is_space a = false /\ Ascii.eqb a "-"%char = false /\ Ascii.eqb a "+"%char = false).
    { clear. intros [[] [] [] [] [] [] [] []]; vm_compute; intro H; try discriminate; auto. }
    destruct (Hd a Da) as (Sa & Ma & Pa). rewrite Ew. cbn [app skip_spaces]. rewrite Sa, Ma, Pa. reflexivity. }
  rewrite C. reflexivity.
Qed.

(** How the words of an individual are separated does not matter, and nor do its titles. *)
Theorem C22_whitespace : forall i t j rest sp0 t1 sp1 sp2 t2 sp3 a v, write_ind E show i = Ok t -> i_chr E i <> [] -> reads (i_fit E i) v ->
  (sp0 = [] \/ white sp0) -> word t1 -> white sp1 -> white sp2 -> word t2 -> white sp3 -> white [a] ->
  read_ind E parse j (sp0 ++ t1 ++ sp1 ++ map bit_char (i_chr E i) ++ sp2 ++ t2 ++ sp3 ++ show (i_fit E i) ++ a :: rest) =
  (fst (read_ind E parse j (t ++ a :: rest)), a :: rest).
Proof.
  intros i t j rest sp0 t1 sp1 sp2 t2 sp3 a v Hw Hc Hv H0 H1 Hs1 Hs2 H2 Hs3 Ha.
  destruct (read_written i t j (a :: rest) v Hw Hc Hv) as [H _]. specialize (H [] (Forall_nil _)). cbn [app] in H. rewrite H. cbn [fst].
  assert (N : forall sp r, white sp -> sp ++ r = [] \/ exists a r', sp ++ r = a :: r' /\ is_space a = true).
  { intros sp r Hs. right. destruct (white_space _ Hs) as [_ (b & r' & -> & Hb)]. cbn [app]. eauto. }
  assert (Sp : forall sp, white sp -> Forall (fun a => is_space a = true) sp) by (intros sp Hs; apply white_space; exact Hs).
  assert (S0 : Forall (fun a => is_space a = true) sp0) by (destruct H0 as [->|H0]; [constructor|auto]).
  unfold read_ind. rewrite (next_word_spec sp0 t1) by auto. rewrite (next_word_spec sp1 (map bit_char (i_chr E i))) by (auto using bits_word).
  rewrite (next_word_spec sp2 t2) by auto. rewrite Hv by (auto; destruct (white_space _ Ha) as [_ (b & r' & Eb & Hb)]; injection Eb as -> <-; exact Hb).
  rewrite map_length, parse_bits_show. reflexivity.
Qed.

Lemma population_valid pop : forall t ks t', read_individuals E parse pop t = (Ok ks, t') ->
  length ks = length pop /\ Forall (fun k => e_chk E (i_par E k) = Ok true) ks.
Proof.
  induction pop as [|i pop IH]; intros t ks t' H; cbn in H; [injection H as <- <-; auto|].
  destruct (read_ind E parse i t) as [[j|e|u] t1]; try discriminate.
  destruct (e_chk E (i_par E j)) as [[]|e|u] eqn:K; try discriminate.
  destruct (read_individuals E parse pop t1) as [o t2] eqn:R. destruct o as [js|e|u]; cbn in H; try discriminate.
  injection H as <- <-. destruct (IH _ _ _ R) as [L F]. split; [cbn; congruence|constructor; assumption].
Qed.
Theorem C22_population_valid : forall pop t ks, read_population E parse pop t = Ok ks ->
  length ks = length pop /\ Forall (fun k => e_chk E (i_par E k) = Ok true) ks.
Proof.
  intros pop t ks H. unfold read_population in H.
  destruct (next_word t) as [a t1]. destruct (next_count t1) as [pw t2]. destruct (next_word t2) as [b t3]. destruct (next_count t3) as [cw t4].
  apply bind_ok in H as (first & _ & H). destruct (negb _); [discriminate|].
  destruct (read_individuals E parse pop t4) as [o t'] eqn:R. cbn in H. subst o. eapply population_valid; eauto.
Qed.

(** A fitness that is printed but cannot be read back (an infinity): alone, the individual is read with fitness 0 and the
    stream has failed; *)
Theorem C22_unreadable_fitness : forall i t j rest q,
  write_ind E show i = Ok t -> unreadable (i_fit E i) ->
  i_chr E i <> [] -> length (i_chr E j) = length (i_chr E i) -> e_dec E (i_par E j) (i_chr E i) = (q, Ok tt) ->
  exists k, read_ind E parse j (t ++ rest) = (Ok k, []) /\
    i_chr E k = i_chr E i /\ i_par E k = q /\ i_has E k = true /\ i_fit E k = d_ofZ 0.
Proof.
  intros i t j rest q Hw Hu Hc Hl Hd.
  destruct (read_written_gen i t j rest (d_ofZ 0) [] Hw Hc) as [H _]; [intros sp Hsp; apply Hu; [exact Hsp|reflexivity]|].
  specialize (H [] (Forall_nil _)). cbn [app] in H. rewrite H. rewrite Hl, Nat.eqb_refl. cbn [negb].
  unfold set_fitness. change (d_ltb (d_ofZ 0) (d_ofZ 0)) with false. cbn [bind i_par i_chr]. rewrite Hd. cbn [bind].
  eexists. split; [reflexivity|]. auto.
Qed.

Lemma read_individuals_unreadable pop : forall ts pop2 i b j b2 q rest sp, mapM (write_ind E show) (pop ++ i :: b) = Ok ts -> Forall2 readable pop pop2 ->
  unreadable (i_fit E i) -> i_chr E i <> [] -> length (i_chr E j) = length (i_chr E i) -> e_dec E (i_par E j) (i_chr E i) = (q, Ok tt) -> e_chk E q = Ok true ->
  Forall (fun a => is_space a = true) sp ->
  exists ks k, length ks = length pop /\ i_chr E k = i_chr E i /\ i_par E k = q /\ i_has E k = true /\ i_fit E k = d_ofZ 0 /\
    (forall n i j k, nth_error pop n = Some i -> nth_error pop2 n = Some j -> nth_error ks n = Some k -> restored i j k) /\
    read_individuals E parse (pop2 ++ j :: b2) (sp ++ concat ts ++ rest) =
      (let (o, t) := read_individuals E parse b2 [] in (let! js := o in Ok (ks ++ k :: js), t)).
Proof.
  induction pop as [|i0 pop IH]; intros ts pop2 i b j b2 q rest sp Hw HF Hu Hc Hl Hd Hk Hsp; cbn [mapM app] in Hw; apply bind_ok in Hw as (t & Ht & Hw);
    apply bind_ok in Hw as (ts' & Hts & Hw); injection Hw as <-.
  - inversion HF; subst. cbn [app read_individuals concat]. rewrite <- app_assoc.
    destruct (read_written_gen i t j (concat ts' ++ rest) (d_ofZ 0) [] Ht Hc) as [H _]; [intros sp' Hsp'; apply Hu; [exact Hsp'|reflexivity]|].
    rewrite (H sp Hsp). rewrite Hl, Nat.eqb_refl. cbn [negb]. unfold set_fitness. change (d_ltb (d_ofZ 0) (d_ofZ 0)) with false. cbn [bind i_par i_chr].
    rewrite Hd. cbn [bind i_par]. rewrite Hk. exists [], (MkInd E q (i_chr E i) true (d_ofZ 0) (i_times E j)). do 5 (split; [reflexivity|]). split; [intros [|n]; discriminate|]. reflexivity.
  - inversion HF as [|? j0 ? pop2' (Hc0 & Hl0 & (q0 & Hd0 & Hk0) & (v & Hv & Hf0)) HF']; subst.
    destruct (read_written i0 t j0 (concat ts' ++ rest) v Ht Hc0 Hv) as [H _]. specialize (H sp Hsp).
    cbn [read_individuals concat app]. rewrite <- app_assoc, H. rewrite Hl0, Nat.eqb_refl. cbn [negb].
    unfold set_fitness. rewrite Hf0. cbn [bind i_par i_chr]. rewrite Hd0. cbn [bind i_par]. rewrite Hk0.
    destruct (IH ts' pop2' i b j b2 q rest [newline] Hts HF' Hu Hc Hl Hd Hk ltac:(repeat constructor)) as (ks & k & L & E1 & E2 & E3 & E4 & Hn & Hr).
    cbn [app] in Hr. rewrite Hr. exists (MkInd E q0 (i_chr E i0) true v (i_times E j0) :: ks), k. split; [cbn; congruence|]. do 4 (split; [assumption|]). split.
    + intros [|n] a c k' Ha Hb Hk'; cbn in Ha, Hb, Hk'; [|eapply Hn; eauto].
      injection Ha as <-. injection Hb as <-. injection Hk' as <-. split; [reflexivity|]. cbn. auto.
    + destruct (read_individuals E parse b2 []) as [[js|e|u] tt']; reflexivity.
Qed.

(** in a population file, everything after it is lost: when individuals follow it, the file the library has written itself is
    rejected by the library; when it is the last one, the file is accepted and the infinite fitness has become 0. *)
Theorem C22_unreadable_population : forall pop i b t pop2 j b2 q,
  write_population E show (pop ++ i :: b) = Ok t -> Forall2 readable pop pop2 -> length b2 = length b ->
  unreadable (i_fit E i) -> i_chr E i <> [] -> length (i_chr E j) = length (i_chr E i) ->
  e_dec E (i_par E j) (i_chr E i) = (q, Ok tt) -> e_chk E q = Ok true ->
  (Z.of_nat (length (pop ++ i :: b)) < 2 ^ 64)%Z -> Forall (fun i => (Z.of_nat (length (i_chr E i)) < 2 ^ 64)%Z) (pop ++ i :: b) ->
  Forall (fun x => i_chr E x <> []) b2 ->
  (b <> [] -> read_population E parse (pop2 ++ j :: b2) t = Throw LogicError) /\
  (b = [] -> exists ks k, read_population E parse (pop2 ++ j :: b2) t = Ok (ks ++ [k]) /\ length ks = length pop /\
    (forall n i j k, nth_error pop n = Some i -> nth_error pop2 n = Some j -> nth_error ks n = Some k -> restored i j k) /\
    i_chr E k = i_chr E i /\ i_par E k = q /\ i_has E k = true /\ i_fit E k = d_ofZ 0).
Proof.
  intros pop i b t pop2 j b2 q Hw HF Hb Hu Hc Hl Hd Hk Sp Sc Hne. unfold write_population in Hw.
  apply bind_ok in Hw as (first & Hfirst & Hw). apply bind_ok in Hw as (ts & Hts & Hw).
  assert (Et : t = [] ++ of_string "Population_size:" ++ " "%char :: newline :: show_nat (length (pop ++ i :: b)) ++ newline ::
      of_string "Chromosome_size:" ++ " "%char :: newline :: show_nat (length (i_chr E first)) ++ newline :: concat ts).
  { injection Hw as <-. reflexivity. }
  assert (Sf : (Z.of_nat (length (i_chr E first)) < 2 ^ 64)%Z).
  { unfold at_ in Hfirst. destruct (pop ++ i :: b) as [|i0 pop0]; [discriminate|]. cbn in Hfirst. injection Hfirst as <-. exact (Forall_inv Sc). }
  assert (Ff : exists f2, nth_error (pop2 ++ j :: b2) 0 = Some f2 /\ length (i_chr E f2) = length (i_chr E first)).
  { unfold at_ in Hfirst. inversion HF as [|x y ? ? Hxy]; subst; cbn in Hfirst; injection Hfirst as <-; eexists; (split; [reflexivity|]); [exact Hl|exact (proj1 (proj2 Hxy))]. }
  destruct Ff as (f2 & Hf2 & Lf).
  assert (Lp : length (pop2 ++ j :: b2) = length (pop ++ i :: b)) by (rewrite !app_length; cbn [length]; rewrite Hb, (Forall2_length _ _ _ HF); reflexivity).
  destruct (read_individuals_unreadable pop ts pop2 i b j b2 q [] [newline] Hts HF Hu Hc Hl Hd Hk ltac:(repeat constructor)) as (ks & k & L & E1 & E2 & E3 & E4 & Hn & Hr).
  assert (R : read_population E parse (pop2 ++ j :: b2) t = fst (let (o, t) := read_individuals E parse b2 [] in (let! js := o in Ok (ks ++ k :: js), t))).
  { rewrite Et. clear Et Hw. unfold read_population.
    rewrite word_app_space; [|split; [discriminate|repeat constructor]|repeat constructor|reflexivity].
    change (" "%char :: newline :: show_nat (length (pop ++ i :: b)) ++ ?x) with ([" "%char; newline] ++ show_nat (length (pop ++ i :: b)) ++ x).
    rewrite next_count_show; [|repeat constructor|exact Sp|reflexivity].
    change (newline :: of_string "Chromosome_size:" ++ ?x) with ([newline] ++ of_string "Chromosome_size:" ++ x).
    rewrite word_app_space; [|split; [discriminate|repeat constructor]|repeat constructor|reflexivity].
    change (" "%char :: newline :: show_nat (length (i_chr E first)) ++ ?x) with ([" "%char; newline] ++ show_nat (length (i_chr E first)) ++ x).
    rewrite next_count_show; [|repeat constructor|exact Sf|reflexivity].
    unfold at_. rewrite Hf2. cbn [bind]. rewrite Lp, Lf, !Z.eqb_refl. cbn [andb negb].
    cbn [app] in Hr. rewrite app_nil_r in Hr. rewrite Hr. reflexivity. }
  rewrite R. split.
  - intro N. destruct b2 as [|j2 b2]; [destruct b; [contradiction|discriminate]|]. cbn [read_individuals].
    assert (X : exists t', read_ind E parse j2 [] = (Throw LogicError, t')).
    { unfold read_ind. change (next_word []) with (@nil ascii, @nil ascii). cbv iota beta. cbn [length].
      assert (N2 : i_chr E j2 <> []) by exact (Forall_inv Hne). destruct (i_chr E j2) as [|x c]; [exfalso; apply N2; reflexivity|]. cbn. destruct (parse []). eauto. }
    destruct X as [t' ->]. reflexivity.
  - intros ->. destruct b2; [|discriminate]. cbn. eauto 12.
Qed.
End Text.
Print Assumptions C22_roundtrip.
Print Assumptions C22_write.
Print Assumptions C22_rejects.
Print Assumptions C22_empty_refuted.
Print Assumptions C22_population_roundtrip.
Print Assumptions C22_population_rejects.
Print Assumptions C22_population_rejects_chromosome.
Print Assumptions C22_population_rejects_garbage.
Print Assumptions C22_population_rejects_negative.
Print Assumptions C22_population_rejects_large.
Print Assumptions C22_population_plus.
Print Assumptions C22_whitespace.
Print Assumptions C22_unreadable_fitness.
Print Assumptions C22_unreadable_population.
Print Assumptions C22_population_valid.

(** ** A concrete case: a printer and a reader of three doubles, and a population of two individuals of an integer parameter. *)
Definition w_show (f : dbl) : text := of_string (if d_ltb f (d_ofZ 1) then "0" else if d_ltb f (d_ofZ 1000) then "1.5e+00" else "inf").
Definition w_value (w : text) : option dbl :=
  if list_eq_dec ascii_dec w (of_string "0") then Some (d_ofZ 0) else if list_eq_dec ascii_dec w (of_string "1.5e+00") then Some (d_of 3 (-1)) else None.
Definition w_parse (t : text) : dbl * text := let (w, r) := next_word t in match w_value w with Some v => (v, r) | None => (d_ofZ 0, []) end.
Lemma w_word f : word (w_show f).
Proof. unfold w_show. destruct (d_ltb f (d_ofZ 1)); [|destruct (d_ltb f (d_ofZ 1000))]; (split; [discriminate|repeat constructor]). Qed.
Lemma w_reads f v : w_value (w_show f) = Some v -> reads w_show w_parse f v.
Proof. intros H sp a rest Hsp Ha. unfold w_parse. rewrite word_app_space by (assumption || apply w_word). rewrite H. reflexivity. Qed.
Lemma w_unreadable f : w_value (w_show f) = None -> unreadable w_show w_parse f.
Proof. intros H sp a rest Hsp Ha. unfold w_parse. rewrite word_app_space by (assumption || apply w_word). rewrite H. reflexivity. Qed.

Definition w_env : env := flip_env RNum 32767 10.
Definition w_p (v : Z) : e_par w_env := PInt RNum {| ip_value := v; ip_min := 0; ip_max := 6; ip_size := Some 3%nat |}.
Definition w_i (c : list bool) (f : dbl) : indiv w_env := MkInd w_env (w_p 1) c true f 0.
Lemma w_zero : w_value (w_show (d_ofZ 0)) = Some (d_ofZ 0). Proof. reflexivity. Qed.
Lemma w_half : w_value (w_show (d_of 3 (-1))) = Some (d_of 3 (-1)). Proof. reflexivity. Qed.
Lemma w_inf : w_value (w_show d_inf) = None. Proof. reflexivity. Qed.
Lemma w_readable b0 b1 f : f = d_ofZ 0 \/ f = d_of 3 (-1) -> readable w_env w_show w_parse (w_i [b0; b1; false] f) (w_i [false; false; false] (d_ofZ 0)).
Proof.
  intro Hf. split; [discriminate|]. split; [reflexivity|]. split.
  - destruct b0, b1; eexists; (split; [reflexivity|reflexivity]).
  - exists f. destruct Hf as [-> | ->]; (split; [apply w_reads; (exact w_zero || exact w_half)|reflexivity]).
Qed.
Example C22_witness :
  let blank := w_i [false; false; false] (d_ofZ 0) in
  let a := w_i [true; false; false] (d_ofZ 0) in let b := w_i [true; true; false] (d_of 3 (-1)) in let c := w_i [false; true; false] d_inf in
  Forall2 (readable w_env w_show w_parse) [a; b] [blank; blank] /\ unreadable w_show w_parse d_inf /\
  (exists t k1 k2, write_population w_env w_show [a; b] = Ok t /\ read_population w_env w_parse [blank; blank] t = Ok [k1; k2] /\
     i_par w_env k1 = w_p 1 /\ i_par w_env k2 = w_p 3) /\
  (exists t, write_population w_env w_show [a; c; b] = Ok t /\ read_population w_env w_parse [blank; blank; blank] t = Throw LogicError) /\
  (exists t k1 k2 k3, write_population w_env w_show [a; b; c] = Ok t /\ read_population w_env w_parse [blank; blank; blank] t = Ok [k1; k2; k3] /\ i_fit w_env k3 = d_ofZ 0).
Proof.
  intros blank a b c.
  assert (Ra : readable w_env w_show w_parse a blank) by (apply w_readable; auto).
  assert (Rb : readable w_env w_show w_parse b blank) by (apply w_readable; auto).
  assert (U : unreadable w_show w_parse d_inf) by (apply w_unreadable, w_inf).
  assert (Dc : e_dec w_env (i_par w_env blank) (i_chr w_env c) = (w_p 2, Ok tt)) by reflexivity.
  assert (Fab : Forall2 (readable w_env w_show w_parse) [a; b] [blank; blank]) by exact (Forall2_cons _ _ Ra (Forall2_cons _ _ Rb (Forall2_nil _))).
  split; [exact Fab|]. split; [exact U|]. split; [|split].
  - destruct (C22_population_roundtrip w_env w_show w_parse [a; b] _ [blank; blank] eq_refl) as (ks & H & L & N); [exact Fab|reflexivity|repeat constructor|].
    destruct ks as [|k1 [|k2 [|? ?]]]; try discriminate. eexists _, k1, k2. split; [reflexivity|]. split; [exact H|].
    destruct (N 0%nat _ _ _ eq_refl eq_refl eq_refl) as (_ & D1 & _). destruct (N 1%nat _ _ _ eq_refl eq_refl eq_refl) as (_ & D2 & _).
    split; [injection D1 as D1; exact (eq_sym D1)|injection D2 as D2; exact (eq_sym D2)].
  - eexists. split; [reflexivity|].
    refine (proj1 (C22_unreadable_population w_env w_show w_parse [a] c [b] _ [blank] blank [blank] (w_p 2) eq_refl (Forall2_cons _ _ Ra (Forall2_nil _)) eq_refl U _ eq_refl Dc eq_refl eq_refl _ _) _);
      [discriminate|repeat constructor|repeat constructor; discriminate|discriminate].
  - destruct (proj2 (C22_unreadable_population w_env w_show w_parse [a; b] c [] _ [blank; blank] blank [] (w_p 2) eq_refl Fab eq_refl U ltac:(discriminate) eq_refl Dc eq_refl eq_refl ltac:(repeat constructor) ltac:(constructor)) eq_refl)
      as (ks & k & H & L & _ & _ & _ & _ & F). destruct ks as [|k1 [|k2 [|? ?]]]; try discriminate. eexists _, k1, k2, k. split; [reflexivity|]. split; [exact H|exact F].
Qed.
Print Assumptions C22_witness.
