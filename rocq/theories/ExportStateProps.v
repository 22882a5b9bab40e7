(** C106: what exporting a model leaves behind, and what it writes. *)
From Coq Require Import List Bool Arith Lia.
From Verif Require Import ExportState ExportStateProofs.
Import ListNotations.

(** ** Specification

    The model as its user sees it: for each module its kind, class, quantizer state, training flag,
    whether it quantizes and its caching options, and requires_grad of the parameters.  Nothing
    about handlers, export mode, backups or cached values. *)
Record seen {P} := Seen { v_kind : kind; v_class : nat; v_param : P; v_train : bool; v_enabled : bool; v_flag : bool; v_io : bool }.
Arguments seen : clear implicits.
Arguments Seen {P}.

Section Spec.
Context {P M : Type}.
Variable meta : P -> M.

(** The quantizers of the modules [vis], in this order. *)
Definition expected (src : option nat) (vis : list nat) (l : list (seen P)) : list (nat * (option nat * M)) :=
  flat_map (fun i => match nth_error l i with
                     | Some v => match v_kind v with
                                 | KPlain | KAct false => []
                                 | _ => if v_enabled v then [(i, (src, meta (v_param v)))] else []
                                 end
                     | None => []
                     end) vis.
Fixpoint change {A} (i : nat) (f : A -> A) (l : list A) : list A :=
  match l, i with
  | [], _ => []
  | x :: r, 0 => f x :: r
  | x :: r, S i => x :: change i f r
  end.
Definition training (b : bool) (v : seen P) := Seen (v_kind v) (v_class v) (v_param v) b (v_enabled v) (v_flag v) (v_io v).
Definition all_as_root (l : list (seen P)) : list (seen P) := match l with v :: _ => map (training (v_train v)) l | [] => [] end.
(** What each step does to that view, when nothing raises. *)
Definition after (st : @step P) (l : list (seen P)) : list (seen P) :=
  match st with
  | SParam i p => change i (fun v => Seen (v_kind v) (v_class v) p (v_train v) (v_enabled v) (v_flag v) (v_io v)) l
  | STrain b => map (training b) l
  | SSub i b => change i (training b) l
  | SEnable i b => change i (fun v => Seen (v_kind v) (v_class v) (v_param v) (v_train v) b (v_flag v) (v_io v)) l
  | SFlag i b => change i (fun v => Seen (v_kind v) (v_class v) (v_param v) (v_train v) (v_enabled v) b (v_io v)) l
  | SForward _ | SGet _ => l
  | SOnnx _ | STorch _ => all_as_root l
  end.
(** What a step shows: a forward pass quantizes with the current state of each quantizer it
    reaches, an export writes it for the manager asked for. *)
Definition shows (st : @step P) (l : list (seen P)) (o : @obs M) : Prop :=
  match st with
  | SForward vis => o = OQuant (expected None vis l)
  | SOnnx c | STorch c => o = ONodes (expected (Some (c_mgr c)) (c_vis2 c) l)
  | SGet _ => True
  | _ => o = ONone
  end.
Fixpoint all_shown (sts : list step) (l : list (seen P)) (os : list obs) : Prop :=
  match sts, os with
  | [], [] => True
  | st :: r, o :: os => shows st l o /\ all_shown r (after st l) os
  | _, _ => False
  end.
(** The tracing pass reaches no module that the pass before it did not. *)
Definition same_path (st : @step P) : Prop := match st with SOnnx c | STorch c => incl (c_vis2 c) (c_vis1 c) | _ => True end.

Definition see (m : @qmod P M) : seen P := Seen (m_kind m) (m_class m) (m_param m) (m_train m) (m_enabled m) (m_flag m) (m_io m).
(** No trace of an export. *)
Definition untouched (m : @qmod P M) : Prop := m_mode m = false /\ m_handler m = None /\ m_flag_bak m = None /\ m_io_bak m = None.
End Spec.

Section Theorems.
Context {P M : Type}.
Variable meta : P -> M.
Variable handles : nat -> nat -> bool.
Variable valid : nat -> M -> bool.
Notation qmod := (@qmod P M).
Notation state := (@state P M).
Notation do_step := (do_step meta handles valid).
Notation run := (run meta handles valid).
Notation onnx := (export_onnx meta handles valid).
Notation torch := (export_torch meta handles valid).

Lemma expected_nodes src vis (l : list qmod) : expected meta src vis (map see l) = nodes meta src vis l.
Proof.
  unfold expected, nodes. apply flat_map_ext. intros i. rewrite nth_error_map. destruct (nth_error l i) as [m|]; [|reflexivity]. cbn. unfold quant_on.
  destruct (m_kind m) as [| | |[|]]; reflexivity.
Qed.
Lemma set_nth_change {A} (f : A -> A) : forall l i x, nth_error l i = Some x -> set_nth i (f x) l = change i f l.
Proof. induction l as [|a l IH]; intros [|i] x H; cbn in H; try discriminate; [injection H as ->; reflexivity|]. change (set_nth (S i) (f x) (a :: l)) with (a :: set_nth i (f x) l). rewrite (IH i x H). reflexivity. Qed.
Lemma change_none {A} (f : A -> A) : forall l i, nth_error l i = None -> change i f l = l.
Proof. induction l as [|a l IH]; intros [|i] H; cbn in *; try discriminate; [reflexivity..|]. rewrite (IH i H). reflexivity. Qed.
Lemma at_mod_change i (f : qmod -> qmod) l : at_mod i f l = change i f l.
Proof. unfold at_mod. destruct (nth_error l i) eqn:E; [apply set_nth_change, E|symmetry; apply change_none, E]. Qed.
Lemma map_change {A B} (h : A -> B) f g : (forall x, h (f x) = g (h x)) -> forall l i, map h (change i f l) = change i g (map h l).
Proof. intros H. induction l as [|a l IH]; intros [|i]; cbn; try reflexivity; [rewrite H; reflexivity|rewrite IH; reflexivity]. Qed.
Lemma change_Forall {A} (Q : A -> Prop) f : (forall x, Q x -> Q (f x)) -> forall l i, Forall Q l -> Forall Q (change i f l).
Proof. intros H. induction l as [|a l IH]; intros [|i] F; inversion F; subst; cbn; constructor; auto. Qed.
Lemma see_erase l l' : map erase l' = map erase l -> map see l' = map (@see P M) l.
Proof.
  revert l'. induction l as [|m l IH]; intros [|m' l'] H; try discriminate; [reflexivity|]. cbn [map] in H. apply cons_inj in H as [H1 H2]. cbn [map]. rewrite (IH _ H2). f_equal.
  unfold see. change (m_kind m') with (m_kind (erase m')). change (m_class m') with (m_class (erase m')). change (m_param m') with (m_param (erase m')). change (m_train m') with (m_train (erase m')).
  change (m_enabled m') with (m_enabled (erase m')). change (m_flag m') with (m_flag (erase m')). change (m_io m') with (m_io (erase m')). rewrite H1. reflexivity.
Qed.
Lemma clean_erase l l' : map erase l' = map erase l -> Forall clean l -> Forall (@clean P M) l'.
Proof.
  apply map_erase_Forall. intros m m' H. unfold clean. change (m_mode m') with (m_mode (erase m')). change (m_handler m') with (m_handler (erase m')). change (m_flag_bak m') with (m_flag_bak (erase m')).
  change (m_io_bak m') with (m_io_bak (erase m')). rewrite <- H. exact (fun x => x).
Qed.
(** After a successful export. *)
Lemma restored_view (l l' : list qmod) t : Forall clean l -> Forall2 keeps l l' -> Forall (fun m => clean m /\ m_train m = t) l' -> map see l' = map (training t) (map see l).
Proof.
  intros C K. revert C. induction K as [|m m' l l' [H _] K IH]; intros C F; [reflexivity|]. inversion C as [|? ? Cm Cl]; inversion F as [|? ? [Cm' T] Fl]; subst. cbn [map]. rewrite (IH Cl Fl). f_equal.
  unfold see, training. cbn. rewrite (f_equal (@m_kind P M) H : m_kind m' = m_kind m), (f_equal (@m_class P M) H : m_class m' = m_class m), (f_equal (@m_param P M) H : m_param m' = m_param m),
    (f_equal (@m_enabled P M) H : m_enabled m' = m_enabled m).
  pose proof (f_equal (@m_flag P M) H) as Hf. pose proof (f_equal (@m_io P M) H) as Hi. cbn in Hf, Hi. destruct Cm as (_ & _ & A & B), Cm' as (_ & _ & A' & B').
  rewrite A, A' in Hf. rewrite B, B' in Hi. cbn in Hf, Hi. rewrite Hf, Hi. reflexivity.
Qed.
Lemma all_as_root_see (l : list qmod) : all_as_root (map see l) = map (training (root_train l)) (map see l).
Proof. destruct l; reflexivity. Qed.
Lemma Forall_clean_wf (l : list qmod) : Forall clean l -> Forall wf l.
Proof. apply Forall_impl. intros m. apply clean_wf. Qed.
Lemma Forall_fst (Q R : qmod -> Prop) l : Forall (fun m => Q m /\ R m) l -> Forall Q l.
Proof. apply Forall_impl. intros m [H _]. exact H. Qed.

(** ** Exports that return *)

(** An export of a model with no trace of an export that returns writes, for the manager asked for,
    the current state of every quantizer the trace reaches, in order, and nothing else.  It leaves
    no trace; kinds, parameters, caching options, disabled quantizers and requires_grad are as
    before, and every module has the training flag of the root. *)
Theorem C106_onnx c s q : Forall untouched (s_mods s) -> incl (c_vis2 c) (c_vis1 c) -> snd (onnx c s) = Exported q ->
  q = expected meta (Some (c_mgr c)) (c_vis2 c) (map see (s_mods s)) /\
  Forall untouched (s_mods (fst (onnx c s))) /\ map see (s_mods (fst (onnx c s))) = all_as_root (map see (s_mods s)) /\ s_grads (fst (onnx c s)) = s_grads s.
Proof.
  intros C I H. rewrite expected_nodes, all_as_root_see. split; [apply (onnx_current _ _ _ c s q C I H)|].
  pose proof (onnx_resets _ _ _ c s q (Forall_clean_wf _ C) H) as R. destruct (keeps_onnx meta handles valid c s) as [K G].
  split; [apply (Forall_fst _ _ _ R)|]. split; [apply (restored_view _ _ _ C K R)|exact G].
Qed.
Theorem C106_torch c s q : Forall untouched (s_mods s) -> incl (c_vis2 c) (c_vis1 c) -> snd (torch c s) = Exported q ->
  q = expected meta (Some (c_mgr c)) (c_vis2 c) (map see (s_mods s)) /\
  Forall untouched (s_mods (fst (torch c s))) /\ map see (s_mods (fst (torch c s))) = all_as_root (map see (s_mods s)) /\ s_grads (fst (torch c s)) = s_grads s.
Proof.
  intros C I H. rewrite expected_nodes, all_as_root_see. split; [apply (torch_current _ _ _ c s q C I H)|].
  pose proof (torch_resets _ _ _ c s q (Forall_clean_wf _ C) H) as R. destruct (keeps_torch meta handles valid c s) as [K G].
  split; [apply (Forall_fst _ _ _ R)|]. split; [apply (restored_view _ _ _ C K R)|apply (G q H)].
Qed.

(** When it does return: both passes return, the manager handles every enabled quantizer and
    accepts its metadata, the first pass reaches every quantized activation, and no activation
    function whose quantization is disabled is reached. *)
Definition can_export (c : call) (l : list (seen P)) : Prop :=
  c_ok1 c = true /\ c_ok2 c = true /\ incl (c_vis2 c) (c_vis1 c)
  /\ (forall i v, nth_error l i = Some v -> v_enabled v = true -> v_kind v <> KPlain -> v_kind v <> KAct false ->
        handles (c_mgr c) (v_class v) = true /\ valid (c_mgr c) (meta (v_param v)) = true /\ (v_kind v = KAct true -> In i (c_vis1 c)))
  /\ (forall i v, nth_error l i = Some v -> In i (c_vis2 c) -> v_kind v = KAct true -> v_enabled v = true).
Lemma can_exportable c (l : list qmod) : can_export c (map see l) -> exportable meta handles valid c l.
Proof.
  intros (A & B & I & H & H'). split; [exact A|]. split; [exact B|]. split; [exact I|]. split.
  - intros i m Hm Q. unfold quant_on in Q. destruct (H i (see m)) as (H1 & H2 & H3).
    + rewrite nth_error_map, Hm. reflexivity.
    + cbn. destruct (m_kind m) as [| | |[|]]; try discriminate; exact Q.
    + cbn. intros E. rewrite E in Q. discriminate.
    + cbn. intros E. rewrite E in Q. discriminate.
    + split; [exact H1|]. split; [exact H2|]. intros Ha. apply H3. cbn. unfold is_act in Ha. destruct (m_kind m) as [| | |[|]]; try discriminate. reflexivity.
  - intros i m Hm Hi K. apply (H' i (see m)); [rewrite nth_error_map, Hm; reflexivity|exact Hi|exact K].
Qed.
Theorem C106_succeeds c s : Forall untouched (s_mods s) -> can_export c (map see (s_mods s)) ->
  (exists q, snd (onnx c s) = Exported q) /\ (exists q, snd (torch c s) = Exported q).
Proof. intros C X. apply can_exportable in X. split; [apply onnx_succeeds|apply torch_succeeds]; assumption. Qed.
(** An activation function whose quantization is disabled ([QuantReLU(act_quant=None)] or
    disable_quant) and which the trace reaches cannot be exported by a manager that handles its
    class. *)
Theorem C106_disabled_activation c s i m : Forall untouched (s_mods s) -> incl (c_vis2 c) (c_vis1 c) -> nth_error (s_mods s) i = Some m -> In i (c_vis2 c) ->
  m_kind m = KAct true -> m_enabled m = false -> handles (c_mgr c) (m_class m) = true -> snd (onnx c s) = Raised /\ snd (torch c s) = Raised.
Proof. intros C I Hm Hi K E Hh. split; [eapply onnx_disabled|eapply torch_disabled]; eassumption. Qed.

(** ** Histories *)
Lemma getter_clean m : m_mode m = false -> erase (fst (getter meta m)) = erase m.
Proof.
  intros O. unfold getter. destruct (m_kind m); try reflexivity. destruct (m_cache m); [reflexivity|].
  destruct (forward1 meta (with_train false m)) as [[m' o]|] eqn:E; cbn [fst].
  - apply forward1_erase in E. destruct m. destruct m'. cbn in *. injection E as -> -> -> -> -> -> -> -> -> -> ->. reflexivity.
  - pose proof (out1_off meta (with_train false m) O) as X. unfold out1 in X. rewrite E in X. discriminate.
Qed.
Lemma step_ok st s s' o : Forall clean (s_mods s) -> same_path st -> do_step st s = (s', o) -> o <> OFail ->
  Forall clean (s_mods s') /\ map see (s_mods s') = after st (map see (s_mods s)) /\ s_grads s' = s_grads s /\ shows meta st (map see (s_mods s)) o.
Proof.
  intros C I E N. destruct st as [i p|b|i b|i b|i b|vis|i|c|c]; cbn [ExportState.do_step] in E.
  - injection E as <- <-. cbn. rewrite at_mod_change. split; [apply change_Forall; [exact (fun x Hx => Hx)|exact C]|]. split; [|split; reflexivity]. apply map_change. reflexivity.
  - injection E as <- <-. cbn. split; [apply Forall_map, C|]. split; [|split; reflexivity]. rewrite !map_map. reflexivity.
  - injection E as <- <-. cbn. rewrite at_mod_change. split; [apply change_Forall; [exact (fun x Hx => Hx)|exact C]|]. split; [|split; reflexivity]. apply map_change. reflexivity.
  - injection E as <- <-. cbn. rewrite at_mod_change. split; [apply change_Forall; [exact (fun x Hx => Hx)|exact C]|]. split; [|split; reflexivity]. apply map_change. reflexivity.
  - injection E as <- <-. cbn. rewrite at_mod_change. split; [apply change_Forall; [exact (fun x Hx => Hx)|exact C]|]. split; [|split; reflexivity]. apply map_change. reflexivity.
  - destruct (forward_off meta vis (s_mods s)) as (l' & F & X). { intros m Hm. rewrite Forall_forall in C. apply (C m Hm). }
    rewrite F in E. injection E as <- <-. cbn [s_mods s_grads shows after]. split; [apply (clean_erase _ _ X C)|]. split; [apply see_erase, X|]. split; [reflexivity|]. rewrite expected_nodes. reflexivity.
  - cbn [shows after]. destruct (nth_error (s_mods s) i) as [m|] eqn:Em; [|injection E as <- <-; auto]. destruct (is_proxy m && quant_on m); [|injection E as <- <-; auto].
    destruct (getter meta m) as [m' v] eqn:G. injection E as <- <-. cbn [s_mods s_grads].
    assert (X : map erase (set_nth i m' (s_mods s)) = map erase (s_mods s)).
    { apply (map_nth_set _ _ _ m); [exact Em|]. replace m' with (fst (getter meta m)) by (rewrite G; reflexivity). apply getter_clean. rewrite Forall_forall in C. apply (C m), (nth_error_In _ _ Em). }
    split; [apply (clean_erase _ _ X C)|]. split; [apply see_erase, X|auto].
  - pose proof (C106_onnx c s) as T. destruct (onnx c s) as [s1 r]. injection E as <- <-. destruct r as [|q]; [destruct N; reflexivity|].
    destruct (T q C I eq_refl) as (T1 & T2 & T3 & T4). cbn [fst snd] in *. split; [exact T2|]. split; [exact T3|]. split; [exact T4|]. cbn. rewrite T1. reflexivity.
  - pose proof (C106_torch c s) as T. destruct (torch c s) as [s1 r]. injection E as <- <-. destruct r as [|q]; [destruct N; reflexivity|].
    destruct (T q C I eq_refl) as (T1 & T2 & T3 & T4). cbn [fst snd] in *. split; [exact T2|]. split; [exact T3|]. split; [exact T4|]. cbn. rewrite T1. reflexivity.
Qed.
(** As long as nothing raises, any sequence of parameter updates, mode changes, forward passes,
    metadata reads and exports to any targets behaves as if exports had no memory: every forward
    pass quantizes with the current state, every export writes it, and exports change nothing but
    training flags. *)
Theorem C106_history sts : forall s s' os, Forall untouched (s_mods s) -> Forall same_path sts -> run sts s = (s', os) -> ~ In OFail os ->
  all_shown meta sts (map see (s_mods s)) os /\ Forall untouched (s_mods s') /\ map see (s_mods s') = fold_left (fun l st => after st l) sts (map see (s_mods s)) /\ s_grads s' = s_grads s.
Proof.
  induction sts as [|st r IH]; intros s s' os C I E N; cbn [ExportState.run] in E.
  - injection E as <- <-. cbn. auto.
  - destruct (do_step st s) as [s1 o] eqn:E1. destruct (run r s1) as [s2 os2] eqn:E2. injection E as <- <-. inversion I as [|? ? I1 I2]; subst.
    destruct (step_ok st s s1 o C I1 E1) as (C1 & V1 & G1 & H1). { intros ->. apply N. left. reflexivity. }
    destruct (IH s1 s2 os2 C1 I2 E2) as (H2 & C2 & V2 & G2). { intros H. apply N. right. exact H. }
    cbn [all_shown fold_left]. rewrite <- V1. split; [split; assumption|]. split; [exact C2|]. split; [exact V2|congruence].
Qed.

(** ** Metadata reads *)

(** Without exports, and as long as nothing is cached (forward passes in training mode or without
    the caching option), the metadata read from a quantizer is that of its current state. *)
Fixpoint uncached (sts : list step) (l : list (seen P)) : Prop :=
  match sts with
  | [] => True
  | st :: r => match st with
               | SForward _ => Forall (fun v => v_train v = true \/ v_flag v = false) l
               | SGet i => forall v, nth_error l i = Some v -> v_flag v = false
               | SOnnx _ | STorch _ => False
               | _ => True
               end /\ uncached r (after st l)
  end.
Definition read (l : list (seen P)) (i : nat) : option M :=
  match nth_error l i with
  | Some v => match v_kind v with KPlain | KAct false => None | _ => if v_enabled v then Some (meta (v_param v)) else None end
  | None => None
  end.
Fixpoint all_read (sts : list step) (l : list (seen P)) (os : list obs) : Prop :=
  match sts, os with
  | [], [] => True
  | st :: r, o :: os => match st with
                        | SGet i => o = match read l i with Some v => OAttr (Some v) | None => ONone end
                        | _ => True
                        end /\ all_read r (after st l) os
  | _, _ => False
  end.
Definition empty (m : qmod) : Prop := m_cache m = None.
Lemma forward1_empty m m' o : m_mode m = false -> m_train m = true \/ m_flag m = false -> empty m -> forward1 meta m = Some (m', o) -> empty m'.
Proof.
  intros O D E H. unfold empty, forward1, cache_out in *. rewrite O in H. assert (X : negb (m_train m) && m_flag m = false) by (destruct D as [-> | ->]; [reflexivity|apply andb_false_r]).
  rewrite X in H. destruct (m_kind m) as [| | |[|]]; try destruct (quant_on m); injection H as <- _; exact E.
Qed.
Lemma forward_empty vis : forall l l' os ok, Forall clean l -> Forall (fun v => v_train v = true \/ v_flag v = false) (map see l) -> Forall empty l ->
  forward meta vis l = (l', os, ok) -> Forall empty l'.
Proof.
  induction vis as [|i r IH]; intros l l' os ok C D E H; cbn [forward] in H; [injection H as <- _ _; exact E|].
  destruct (nth_error l i) as [m|] eqn:Em; [|eapply IH; eassumption]. destruct (forward1 meta m) as [[m' o]|] eqn:E1; [|injection H as <- _ _; exact E].
  destruct (forward meta r (set_nth i m' l)) as [[l1 os1] ok1] eqn:E2. injection H as <- _ _.
  pose proof (map_nth_set erase l i m m' Em (forward1_erase _ _ _ _ E1)) as X. pose proof (nth_error_In _ _ Em) as Im.
  assert (L : i < length l) by (apply nth_error_Some; rewrite Em; discriminate).
  eapply IH; [apply (clean_erase _ _ X C)|rewrite (see_erase _ _ X); exact D| |exact E2].
  apply Forall_forall. intros x Hx. apply In_nth_error in Hx as [j Hj]. rewrite nth_set_nth in Hj by exact L. destruct (j =? i).
  - injection Hj as <-. rewrite Forall_forall in C, E. eapply forward1_empty; [apply (C m Im)| |apply (E m Im)|exact E1].
    rewrite Forall_map, Forall_forall in D. apply (D m Im).
  - rewrite Forall_forall in E. apply E, (nth_error_In _ _ Hj).
Qed.
Lemma step_reads st s s' o : Forall clean (s_mods s) -> Forall empty (s_mods s) -> uncached [st] (map see (s_mods s)) -> do_step st s = (s', o) ->
  o <> OFail /\ Forall empty (s_mods s') /\ match st with SGet i => o = match read (map see (s_mods s)) i with Some v => OAttr (Some v) | None => ONone end | _ => True end.
Proof.
  intros C E [U _] H. destruct st as [i p|b|i b|i b|i b|vis|i|c|c]; try contradiction; cbn [ExportState.do_step] in H;
    try (injection H as <- <-; split; [discriminate|]; split; [|exact I]; cbn; rewrite at_mod_change; apply change_Forall; [exact (fun x Hx => Hx)|exact E]).
  - injection H as <- <-. split; [discriminate|]. split; [|exact I]. apply Forall_map, E.
  - destruct (forward_off meta vis (s_mods s)) as (l' & F & X). { intros m Hm. rewrite Forall_forall in C. apply (C m Hm). }
    rewrite F in H. injection H as <- <-. split; [discriminate|]. split; [|exact I]. apply (forward_empty _ _ _ _ _ C U E F).
  - unfold read. rewrite nth_error_map. destruct (nth_error (s_mods s) i) as [m|] eqn:Em; [|injection H as <- <-; split; [discriminate|split; [exact E|reflexivity]]]. cbn [option_map see v_kind v_enabled v_param].
    pose proof (nth_error_In _ _ Em) as Im. assert (Cm := proj1 (Forall_forall _ _) C m Im). assert (Ee := proj1 (Forall_forall _ _) E m Im). unfold empty in Ee. destruct Cm as (O & _).
    specialize (U (see m)). rewrite nth_error_map, Em in U. specialize (U eq_refl). cbn in U.
    assert (G : is_proxy m && quant_on m = true -> exists m', getter meta m = (m', Some (meta (m_param m))) /\ empty m').
    { intros Q. apply andb_true_iff in Q as [_ Q]. unfold getter. rewrite O, Ee. unfold quant_on in Q. destruct (m_kind m) as [| | |[|]] eqn:K; try discriminate Q; try (exists m; split; [reflexivity|exact Ee]).
      destruct (forward1 meta (with_train false m)) as [[m1 o1]|] eqn:F.
      - exists (with_train (m_train m) m1). assert (F' := F). apply forward1_empty in F'; [|exact O|right; exact U|exact Ee]. split; [|exact F'].
        unfold forward1 in F. change (m_kind (with_train false m)) with (m_kind m) in F. rewrite K in F. change (m_mode (with_train false m)) with (m_mode m) in F. rewrite O in F.
        unfold quant_on in F. change (m_kind (with_train false m)) with (m_kind m) in F. rewrite K in F. change (m_enabled (with_train false m)) with (m_enabled m) in F. rewrite Q in F. injection F as _ <-. reflexivity.
      - pose proof (out1_off meta (with_train false m) O) as X. unfold out1 in X. rewrite F in X. discriminate. }
    unfold is_proxy, quant_on in *. destruct (m_kind m) as [| | |[|]]; cbn [andb] in *;
      try (injection H as <- <-; split; [discriminate|]; split; [exact E|reflexivity]);
      (destruct (m_enabled m); [|injection H as <- <-; split; [discriminate|]; split; [exact E|reflexivity]]);
      destruct (G eq_refl) as (m' & G1 & G2); rewrite G1 in H; injection H as <- <-; (split; [discriminate|]); (split; [|reflexivity]); cbn [s_mods];
      rewrite (set_nth_change (fun _ => m') _ _ m Em); (apply change_Forall; [intros; exact G2|exact E]).
Qed.
Theorem C106_reads sts : forall s s' os, Forall untouched (s_mods s) -> Forall empty (s_mods s) -> uncached sts (map see (s_mods s)) -> run sts s = (s', os) ->
  all_read sts (map see (s_mods s)) os.
Proof.
  induction sts as [|st r IH]; intros s s' os C E U H; cbn [ExportState.run] in H; [injection H as <- <-; exact I|].
  destruct (do_step st s) as [s1 o] eqn:E1. destruct (run r s1) as [s2 os2] eqn:E2. injection H as <- <-. destruct U as [U1 U2].
  destruct (step_reads st s s1 o C E (conj U1 I) E1) as (N & Em & R). assert (Sp : same_path st) by (destruct st; try exact I; destruct U1).
  destruct (step_ok st s s1 o C Sp E1 N) as (C1 & V1 & _ & _). cbn [all_read]. split; [exact R|]. rewrite <- V1 in *. eapply IH; eassumption.
Qed.

(** ** With exceptions *)
Definition core (v : seen P) : kind * nat * P * bool := (v_kind v, v_class v, v_param v, v_enabled v).
Lemma keeps_core (l l' : list qmod) : Forall2 keeps l l' -> map core (map see l') = map core (map see l).
Proof.
  induction 1 as [|m m' l l' [H _] K IH]; [reflexivity|]. cbn [map]. rewrite IH. f_equal. unfold core, see. cbn.
  rewrite (f_equal (@m_kind P M) H : m_kind m' = m_kind m), (f_equal (@m_class P M) H : m_class m' = m_class m), (f_equal (@m_param P M) H : m_param m' = m_param m), (f_equal (@m_enabled P M) H : m_enabled m' = m_enabled m). reflexivity.
Qed.
Lemma set_nth_rel {A} (R : A -> A -> Prop) : (forall x, R x x) -> forall l i x y, nth_error l i = Some x -> R x y -> Forall2 R l (set_nth i y l).
Proof.
  intros Rr. induction l as [|a l IH]; intros [|i] x y H Rxy; cbn in H; try discriminate.
  - injection H as ->. constructor; [exact Rxy|]. cbn. clear -Rr. induction l; constructor; auto.
  - change (set_nth (S i) y (a :: l)) with (a :: set_nth i y l). constructor; [apply Rr|]. eapply IH; eassumption.
Qed.
Lemma core_train b (l : list (seen P)) : map core (map (training b) l) = map core l.
Proof. rewrite map_map. reflexivity. Qed.
Lemma core_root (l : list (seen P)) : map core (all_as_root l) = map core l.
Proof. destruct l; [reflexivity|]. apply core_train. Qed.
Lemma core_change f g (l : list (seen P)) i : (forall v, core (f v) = g (core v)) -> map core (change i f l) = change i g (map core l).
Proof. intros H. apply map_change, H. Qed.
Lemma after_core st (l l' : list (seen P)) : map core l = map core l' -> map core (after st l) = map core (after st l').
Proof.
  intros H. destruct st as [i p|b|i b|i b|i b|vis|i|c|c]; cbn [after]; rewrite ?core_train, ?core_root; auto.
  - rewrite !(core_change _ (fun x => let '(k, c, _, e) := x in (k, c, p, e))) by reflexivity. rewrite H. reflexivity.
  - rewrite !(core_change _ (fun x => x)) by reflexivity. rewrite H. reflexivity.
  - rewrite !(core_change _ (fun x => let '(k, c, q, _) := x in (k, c, q, b))) by reflexivity. rewrite H. reflexivity.
  - rewrite !(core_change _ (fun x => x)) by reflexivity. rewrite H. reflexivity.
Qed.
Lemma change_wf (f : qmod -> qmod) : (forall m, wf m -> wf (f m)) -> forall l i, Forall wf l -> Forall wf (change i f l).
Proof. intros H l i. apply change_Forall, H. Qed.
Lemma step_any st s : Forall wf (s_mods s) ->
  Forall wf (s_mods (fst (do_step st s))) /\ map core (map see (s_mods (fst (do_step st s)))) = map core (after st (map see (s_mods s)))
  \/ (exists i b, st = SFlag i b).
Proof.
  intros W. destruct st as [i p|b|i b|i b|i b|vis|i|c|c]; try (right; eauto; fail); left; cbn [ExportState.do_step].
  - cbn. rewrite at_mod_change. split; [apply change_wf; [exact (fun x Hx => Hx)|exact W]|]. rewrite (map_change see _ (fun v => Seen (v_kind v) (v_class v) p (v_train v) (v_enabled v) (v_flag v) (v_io v))) by reflexivity. reflexivity.
  - cbn. split; [apply Forall_map, W|]. rewrite !map_map. reflexivity.
  - cbn. rewrite at_mod_change. split; [apply change_wf; [exact (fun x Hx => Hx)|exact W]|]. rewrite (map_change see _ (training b)) by reflexivity. reflexivity.
  - cbn. rewrite at_mod_change. split; [apply change_wf; [exact (fun x Hx => Hx)|exact W]|]. rewrite (map_change see _ (fun v => Seen (v_kind v) (v_class v) (v_param v) (v_train v) b (v_flag v) (v_io v))) by reflexivity. reflexivity.
  - destruct (forward meta vis (s_mods s)) as [[l q] ok] eqn:F. apply keeps_forward in F. cbn [fst s_mods after]. split; [apply (Forall_keeps_wf _ _ F W)|apply keeps_core, F].
  - cbn [after]. destruct (nth_error (s_mods s) i) as [m|] eqn:Em; [|split; [exact W|reflexivity]]. destruct (is_proxy m && quant_on m); [|split; [exact W|reflexivity]].
    pose proof (keeps_getter meta m) as K. destruct (getter meta m) as [m' v]. cbn [fst s_mods] in *. pose proof (set_nth_rel _ keeps_refl _ _ _ _ Em K) as KK.
    split; [apply (Forall_keeps_wf _ _ KK W)|apply keeps_core, KK].
  - destruct (keeps_onnx meta handles valid c s) as [K _]. destruct (onnx c s) as [s1 r]. cbn [fst] in *. cbn [after]. rewrite core_root. split; [apply (Forall_keeps_wf _ _ K W)|apply keeps_core, K].
  - destruct (keeps_torch meta handles valid c s) as [K _]. destruct (torch c s) as [s1 r]. cbn [fst] in *. cbn [after]. rewrite core_root. split; [apply (Forall_keeps_wf _ _ K W)|apply keeps_core, K].
Qed.
Lemma step_any' st s : Forall wf (s_mods s) ->
  Forall wf (s_mods (fst (do_step st s))) /\ map core (map see (s_mods (fst (do_step st s)))) = map core (after st (map see (s_mods s))).
Proof.
  intros W. destruct (step_any st s W) as [H|(i & b & ->)]; [exact H|]. cbn. rewrite at_mod_change. split; [apply change_wf; [exact (fun x Hx => Hx)|exact W]|].
  rewrite (map_change see _ (fun v => Seen (v_kind v) (v_class v) (v_param v) (v_train v) (v_enabled v) b (v_io v))) by reflexivity. reflexivity.
Qed.
Lemma run_any sts : forall s, Forall wf (s_mods s) -> Forall wf (s_mods (fst (run sts s))) /\
  map core (map see (s_mods (fst (run sts s)))) = map core (fold_left (fun l st => after st l) sts (map see (s_mods s))).
Proof.
  induction sts as [|st r IH]; intros s W; cbn [ExportState.run]; [split; [exact W|reflexivity]|].
  destruct (step_any' st s W) as [W1 V1]. destruct (do_step st s) as [s1 o]. cbn [fst] in *. destruct (IH s1 W1) as [W2 V2]. destruct (run r s1) as [s2 os]. cbn [fst fold_left] in *.
  split; [exact W2|]. rewrite V2. clear -V1. revert V1. generalize (map see (s_mods s1)) (after st (map see (s_mods s))). induction r as [|x r IH]; intros l l' H; [exact H|]. cbn [fold_left]. apply IH, after_core, H.
Qed.
(** Whatever raises, exports never change a parameter, a buffer of a quantizer, or which quantizers
    are enabled. *)
Theorem C106_state_kept sts s : Forall untouched (s_mods s) ->
  map core (map see (s_mods (fst (run sts s)))) = map core (fold_left (fun l st => after st l) sts (map see (s_mods s))).
Proof. intros C. apply run_any, Forall_clean_wf, C. Qed.
(** Whatever has raised before, an export that returns leaves no trace. *)
Theorem C106_success_resets sts c s q : Forall untouched (s_mods s) ->
  (snd (onnx c (fst (run sts s))) = Exported q -> Forall untouched (s_mods (fst (onnx c (fst (run sts s))))))
  /\ (snd (torch c (fst (run sts s))) = Exported q -> Forall untouched (s_mods (fst (torch c (fst (run sts s)))))).
Proof.
  intros C. destruct (run_any sts s (Forall_clean_wf _ C)) as [W _].
  split; intros H; [apply (Forall_fst _ _ _ (onnx_resets _ _ _ _ _ _ W H))|apply (Forall_fst _ _ _ (torch_resets _ _ _ _ _ _ W H))].
Qed.
End Theorems.

(** ** Examples

    Parameters and metadata are numbers; every manager handles every class but 9; manager 1 refuses
    metadata above 8. *)
Definition ex_meta (p : nat) : nat := p.
Definition ex_handles (g c : nat) : bool := negb (c =? 9).
Definition ex_valid (g v : nat) : bool := negb (g =? 1) || (v <=? 8).
Definition ex_model : @state nat nat :=
  St [fresh KPlain 0 0 true; fresh KWeight 1 3 true; fresh (KAct true) 2 5 true; fresh KBias 3 7 true; fresh (KAct false) 9 0 false] [true; false].
Definition all_calls (g : nat) : call := Call g [2; 1; 3; 4] true [2; 1; 3; 4] true.
Definition failing (g : nat) : call := Call g [2; 1; 3; 4] true [2; 1; 3; 4] false.
Notation ex_run := (run ex_meta ex_handles ex_valid).
Example ex_model_untouched : Forall untouched (s_mods ex_model).
Proof. repeat constructor. Qed.
Example ex_model_can : can_export ex_meta ex_handles ex_valid (all_calls 1) (map see (s_mods ex_model)).
Proof.
  split; [reflexivity|]. split; [reflexivity|]. split; [apply incl_refl|]. split.
  - intros [|[|[|[|[|[|i]]]]]] v H; cbn in H; try discriminate; injection H as <-; cbn; intros; try discriminate; try congruence; repeat split; intros; try discriminate; auto.
  - intros [|[|[|[|[|[|i]]]]]] v H; cbn in H; try discriminate; injection H as <-; cbn; intros; try discriminate; reflexivity.
Qed.
Example ex_export : snd (ex_run [SOnnx (all_calls 0); SParam 2 6; SForward [2; 1]; STorch (all_calls 1)] ex_model)
  = [ONodes [(2, (Some 0, 5)); (1, (Some 0, 3)); (3, (Some 0, 7))]; ONone; OQuant [(2, (None, 6)); (1, (None, 3))];
     ONodes [(2, (Some 1, 6)); (1, (Some 1, 3)); (3, (Some 1, 7))]].
Proof. vm_compute. reflexivity. Qed.
Example ex_reads : snd (ex_run [SGet 2; SParam 2 6; SForward [2; 1]; SGet 2; STrain false; SParam 1 4; SForward [1]; SGet 1; SGet 4] ex_model)
  = [OAttr (Some 5); ONone; OQuant [(2, (None, 6)); (1, (None, 3))]; OAttr (Some 6); ONone; ONone; OQuant [(1, (None, 4))]; OAttr (Some 4); ONone].
Proof. vm_compute. reflexivity. Qed.
Example ex_cached_in_training : snd (ex_run [SFlag 2 true; SForward [2]; SParam 2 6; SGet 2] ex_model) = [ONone; OQuant [(2, (None, 5))]; ONone; OAttr (Some 6)].
Proof. vm_compute. reflexivity. Qed.
Example ex_invalid : snd (ex_run [SParam 1 9; SOnnx (all_calls 1)] ex_model) = [ONone; OFail].
Proof. vm_compute. reflexivity. Qed.

Example ex_disabled : snd (ex_run [SEnable 2 false; SForward [2; 1]; SOnnx (all_calls 0); SEnable 2 true; STorch (all_calls 0)] ex_model)
  = [ONone; OQuant [(1, (None, 3))]; OFail; ONone; OFail].
Proof. vm_compute. reflexivity. Qed.
Example ex_state_kept : map m_param (s_mods (fst (ex_run [STorch (failing 0); SParam 1 4; SOnnx (failing 1)] ex_model))) = [0; 4; 5; 7; 0].
Proof. vm_compute. reflexivity. Qed.

(** ** Refuted

    After an export that raised: a retry writes the metadata computed before; an export to another
    target writes the nodes of the first one; forward passes, also in training, keep using what the
    handlers stored. *)
Theorem C106_retry_refuted : exists sts : list (@step nat), exists s : @state nat nat, Forall untouched (s_mods s) /\
  snd (ex_run sts s) = [OFail; ONone; ONodes [(1, (Some 0, 3)); (2, (Some 0, 5))]]
  /\ sts = [SOnnx (Call 0 [1; 2] true [1; 2] false); SParam 1 4; SOnnx (Call 0 [1; 2] true [1; 2] true)].
Proof. eexists. exists ex_model. split; [apply ex_model_untouched|]. split; [|reflexivity]. vm_compute. reflexivity. Qed.
Theorem C106_other_target_refuted : exists sts : list (@step nat), exists s : @state nat nat, Forall untouched (s_mods s) /\
  snd (ex_run sts s) = [OFail; ONodes [(1, (Some 0, 3)); (2, (Some 0, 5))]]
  /\ sts = [SOnnx (Call 0 [1; 2] true [1; 2] false); STorch (Call 1 [1; 2] true [1; 2] true)].
Proof. eexists. exists ex_model. split; [apply ex_model_untouched|]. split; [|reflexivity]. vm_compute. reflexivity. Qed.
Theorem C106_training_after_failure_refuted : exists sts : list (@step nat), exists s : @state nat nat, Forall untouched (s_mods s) /\
  snd (ex_run sts s) = [OFail; ONone; ONone; OQuant [(1, (Some 0, 3))]]
  /\ sts = [SOnnx (Call 0 [1; 2] true [1; 2] false); STrain true; SParam 1 4; SForward [1]].
Proof. eexists. exists ex_model. split; [apply ex_model_untouched|]. split; [|reflexivity]. vm_compute. reflexivity. Qed.
(** A trace that raises leaves requires_grad of every parameter False, and a later export that
    returns keeps it False. *)
Theorem C106_grads_after_failure_refuted : exists sts : list (@step nat), exists s : @state nat nat, Forall untouched (s_mods s) /\
  s_grads s = [true; false] /\ s_grads (fst (ex_run sts s)) = [false; false] /\ sts = [STorch (failing 0); STorch (all_calls 0)]
  /\ snd (ex_run sts s) = [OFail; ONodes [(2, (Some 0, 5)); (1, (Some 0, 3)); (3, (Some 0, 7))]].
Proof. exists [STorch (failing 0); STorch (all_calls 0)]. exists ex_model. split; [apply ex_model_untouched|]. split; [reflexivity|]. split; [vm_compute; reflexivity|]. split; [reflexivity|]. vm_compute. reflexivity. Qed.
(** A submodule kept in evaluation mode while the model trains (frozen batch norm) is in training
    mode after an export that returns. *)
Theorem C106_training_flag_refuted : exists sts : list (@step nat), exists s : @state nat nat, Forall untouched (s_mods s) /\
  map m_train (s_mods (fst (ex_run [SSub 1 false] s))) = [true; false; true; true; true]
  /\ map m_train (s_mods (fst (ex_run sts s))) = [true; true; true; true; true]
  /\ sts = [SSub 1 false; SOnnx (all_calls 0)] /\ ~ In OFail (snd (ex_run sts s)).
Proof.
  exists [SSub 1 false; SOnnx (all_calls 0)]. exists ex_model. split; [apply ex_model_untouched|]. split; [vm_compute; reflexivity|]. split; [vm_compute; reflexivity|]. split; [reflexivity|].
  vm_compute. intros [H|[H|[]]]; discriminate.
Qed.
(** After an export that returns, the scale of an activation read through its proxy is the one of
    the export, whatever happens to the parameters. *)
Theorem C106_getter_after_export_refuted : exists sts : list (@step nat), exists s : @state nat nat, Forall untouched (s_mods s) /\
  snd (ex_run sts s) = [ONodes [(2, (Some 0, 5)); (1, (Some 0, 3)); (3, (Some 0, 7))]; ONone; OAttr (Some 5); OQuant [(2, (None, 6))]]
  /\ sts = [SOnnx (all_calls 0); SParam 2 6; SGet 2; SForward [2]].
Proof. eexists. exists ex_model. split; [apply ex_model_untouched|]. split; [|reflexivity]. vm_compute. reflexivity. Qed.
(** Taking a model out of export mode by hand after a failed ONNX trace does not help: the next
    export writes the old metadata of activations, since their caching option is taken for
    already overridden. *)
Theorem C106_manual_reset_refuted : exists s : @state nat nat, Forall untouched (s_mods s) /\
  let s1 := fst (export_onnx ex_meta ex_handles ex_valid (failing 0) s) in
  let s2 := St (map mode_off (s_mods s1)) (s_grads s1) in
  snd (ex_run [SParam 2 6; SParam 1 4; SForward [2; 1]; SOnnx (all_calls 0)] s2)
  = [ONone; ONone; OQuant [(2, (None, 6)); (1, (None, 4))]; ONodes [(2, (Some 0, 5)); (1, (Some 0, 4)); (3, (Some 0, 7))]].
Proof. exists ex_model. split; [apply ex_model_untouched|]. vm_compute. reflexivity. Qed.

Print Assumptions C106_onnx.
Print Assumptions C106_torch.
Print Assumptions C106_succeeds.
Print Assumptions C106_disabled_activation.
Print Assumptions C106_history.
Print Assumptions C106_reads.
Print Assumptions C106_state_kept.
Print Assumptions C106_success_resets.
Print Assumptions C106_retry_refuted.
Print Assumptions C106_other_target_refuted.
Print Assumptions C106_training_after_failure_refuted.
Print Assumptions C106_grads_after_failure_refuted.
Print Assumptions C106_training_flag_refuted.
Print Assumptions C106_getter_after_export_refuted.
Print Assumptions C106_manual_reset_refuted.
