(** Lemmas about the export state machine. *)
From Coq Require Import List Bool Arith Lia.
From Verif Require Import ExportState.
Import ListNotations.

(** ** Lists *)
Lemma nth_set_nth {A} (x : A) : forall l i j, i < length l -> nth_error (set_nth i x l) j = if j =? i then Some x else nth_error l j.
Proof.
  intros l i j H. unfold set_nth. destruct (Nat.eqb_spec j i) as [->|N].
  - rewrite nth_error_app2; rewrite firstn_length; [|lia]. replace (i - Nat.min i (length l)) with 0 by lia. reflexivity.
  - destruct (Nat.ltb_spec j i).
    + rewrite nth_error_app1 by (rewrite firstn_length; lia). rewrite <- (firstn_skipn i l) at 2. rewrite nth_error_app1 by (rewrite firstn_length; lia). reflexivity.
    + rewrite nth_error_app2; rewrite firstn_length; [|lia]. replace (j - Nat.min i (length l)) with (S (j - i - 1)) by lia. cbn [nth_error].
      rewrite <- (firstn_skipn (S i) l) at 2. rewrite (nth_error_app2 (firstn (S i) l)) by (rewrite firstn_length; lia). rewrite firstn_length. f_equal. lia.
Qed.
Lemma map_set_nth {A B} (f : A -> B) i x l : map f (set_nth i x l) = set_nth i (f x) (map f l).
Proof. unfold set_nth. rewrite map_app, <- firstn_map. cbn [map]. rewrite <- skipn_map. reflexivity. Qed.
Lemma set_nth_same {A} (l : list A) i x : nth_error l i = Some x -> set_nth i x l = l.
Proof. intros H. unfold set_nth. rewrite <- (firstn_skipn i l) at 3. f_equal. revert i H. induction l; intros [|i] H; cbn in *; try discriminate; [injection H as ->; reflexivity|]. apply IHl, H. Qed.
Lemma set_nth_length {A} (l : list A) i x : i < length l -> length (set_nth i x l) = length l.
Proof. intros H. unfold set_nth. rewrite app_length, firstn_length. cbn [length]. rewrite skipn_length. lia. Qed.
Lemma map_nth_set {A B} (f : A -> B) l i m x : nth_error l i = Some m -> f x = f m -> map f (set_nth i x l) = map f l.
Proof. intros H E. rewrite map_set_nth, E. apply set_nth_same. rewrite nth_error_map, H. reflexivity. Qed.
Lemma Forall2_nth {A B} (R : A -> B -> Prop) l l' : Forall2 R l l' -> forall i x, nth_error l i = Some x -> exists y, nth_error l' i = Some y /\ R x y.
Proof. induction 1; intros [|i] z H'; cbn in *; try discriminate; [injection H' as <-; eauto|]. apply IHForall2, H'. Qed.
Lemma Forall2_map_r {A B C} (R : A -> C -> Prop) (f : B -> C) l l' : Forall2 (fun a b => R a (f b)) l l' -> Forall2 R l (map f l').
Proof. induction 1; constructor; assumption. Qed.
Lemma Forall2_imp {A B} (R Q : A -> B -> Prop) l l' : (forall a b, R a b -> Q a b) -> Forall2 R l l' -> Forall2 Q l l'.
Proof. intros H. induction 1; constructor; auto. Qed.
Lemma Forall2_trans {A B C} (R : A -> B -> Prop) (Q : B -> C -> Prop) (T : A -> C -> Prop) : (forall a b c, R a b -> Q b c -> T a c) ->
  forall l l', Forall2 R l l' -> forall l'', Forall2 Q l' l'' -> Forall2 T l l''.
Proof. intros H l l'. induction 1; intros l'' H2; inversion H2; subst; constructor; eauto. Qed.

Section Proofs.
Context {P M : Type}.
Variable meta : P -> M.
Variable handles : nat -> nat -> bool.
Variable valid : nat -> M -> bool.
Notation qmod := (@qmod P M).
Notation state := (@state P M).
Notation forward1 := (forward1 meta).
Notation forward := (forward meta).
Notation getter := (getter meta).
Notation set_handler := (set_handler handles).
Notation mode_on := (mode_on meta valid).
Notation before_trace := (before_trace meta handles valid).
Notation cache_inp_out := (cache_inp_out meta).

Definition erase (m : qmod) := with_cache None m.
(** Everything an export has to leave alone: class, kind, parameters, flags (as they were before
    they were overridden). *)
Definition orig {A} (b : A) (k : option A) := match k with Some x => x | None => b end.
Definition ident (m : qmod) : qmod :=
  Mod (m_kind m) (m_class m) (m_param m) false (m_enabled m) false None (orig (m_flag m) (m_flag_bak m)) None (orig (m_io m) (m_io_bak m)) None None.
Definition wf (m : qmod) : Prop :=
  (m_kind m = KPlain -> m_mode m = false /\ m_handler m = None)
  /\ (is_act m = false -> is_bias m = false -> m_flag_bak m = None) /\ (is_act m = false -> m_io_bak m = None).
Definition clean (m : qmod) : Prop := m_mode m = false /\ m_handler m = None /\ m_flag_bak m = None /\ m_io_bak m = None.
Lemma clean_wf m : clean m -> wf m.
Proof. intros (A & B & C & D). repeat split; intros; assumption. Qed.

Ltac des m := destruct m as [k cls p tr en mo h f fb io iob ca]; cbn in *.
Ltac des' m := destruct m as [k0 cls0 p0 tr0 en0 mo0 h0 f0 fb0 io0 iob0 ca0]; cbn in *.

(** ** Forward passes *)
Lemma forward1_erase m m' o : forward1 m = Some (m', o) -> erase m' = erase m.
Proof.
  des m. unfold ExportState.forward1, cache_out, quant_on, handler_data. cbn. intros H.
  destruct k as [| | |[|]]; cbn in H; try (injection H as <- _; reflexivity);
    destruct mo, en; cbn in H;
    repeat match type of H with
           | context [match h with _ => _ end] => destruct h as [[? [?|]]|]; cbn in H
           | context [if ?b then _ else _] => destruct b; cbn in H
           end; try discriminate H; injection H as <- _; reflexivity.
Qed.
Definition out1 (m : qmod) : option (option (option nat * M)) := option_map snd (forward1 m).
Lemma out1_erase m : out1 (erase m) = out1 m.
Proof.
  des m. unfold out1, ExportState.forward1, cache_out, quant_on, handler_data, erase, with_cache. cbn.
  destruct k as [| | |[|]]; cbn; try reflexivity; destruct mo, en; cbn; try reflexivity; destruct h as [[? [?|]]|]; reflexivity.
Qed.
Fixpoint collect (vis : list nat) (l : list qmod) : list (nat * (option nat * M)) * bool :=
  match vis with
  | [] => ([], true)
  | i :: r => match nth_error l i with
              | None => collect r l
              | Some m => match out1 m with
                          | None => ([], false)
                          | Some o => let '(os, ok) := collect r l in (match o with Some q => (i, q) :: os | None => os end, ok)
                          end
              end
  end.
Lemma collect_erase vis : forall l, collect vis (map erase l) = collect vis l.
Proof.
  induction vis as [|i r IH]; intros l; cbn [collect]; [reflexivity|]. rewrite nth_error_map, IH. destruct (nth_error l i) as [m|]; cbn [option_map]; [|reflexivity].
  rewrite out1_erase. reflexivity.
Qed.
Lemma forward_spec vis : forall l l' os ok, forward vis l = (l', os, ok) -> map erase l' = map erase l /\ collect vis l = (os, ok).
Proof.
  induction vis as [|i r IH]; intros l l' os ok H; cbn [ExportState.forward collect] in *.
  - injection H as <- <- <-. split; reflexivity.
  - destruct (nth_error l i) as [m|] eqn:E; [|apply IH, H]. unfold out1. destruct (forward1 m) as [[m' o]|] eqn:E1; cbn [option_map].
    + destruct (forward r (set_nth i m' l)) as [[l1 os1] ok1] eqn:E2. injection H as <- <- <-. destruct (IH _ _ _ _ E2) as [A B].
      assert (Es : map erase (set_nth i m' l) = map erase l) by (apply (map_nth_set _ _ _ m); [exact E|]; apply (forward1_erase _ _ _ E1)).
      split; [rewrite A; exact Es|]. rewrite <- collect_erase, Es, collect_erase in B. rewrite B. reflexivity.
    + injection H as <- <- <-. split; reflexivity.
Qed.

(** The quantizers of a model, by view. *)
Definition nodes (src : option nat) (vis : list nat) (l : list qmod) : list (nat * (option nat * M)) :=
  flat_map (fun i => match nth_error l i with Some m => if quant_on m then [(i, (src, meta (m_param m)))] else [] | None => [] end) vis.
Lemma collect_nodes src vis : forall l, (forall i m, In i vis -> nth_error l i = Some m -> out1 m = Some (if quant_on m then Some (src, meta (m_param m)) else None)) ->
  collect vis l = (nodes src vis l, true).
Proof.
  induction vis as [|i r IH]; intros l H; cbn [collect nodes flat_map]; [reflexivity|].
  rewrite IH by (intros; apply (H i0); [right|]; assumption). destruct (nth_error l i) as [m|] eqn:E; [|reflexivity].
  rewrite (H i m (or_introl eq_refl) E). destruct (quant_on m); reflexivity.
Qed.
Lemma out1_off m : m_mode m = false -> out1 m = Some (if quant_on m then Some (None, meta (m_param m)) else None).
Proof. des m. intros ->. unfold out1, ExportState.forward1, quant_on. cbn. destruct k as [| | |[|]], en; reflexivity. Qed.
Lemma forward_off vis l : (forall m, In m l -> m_mode m = false) -> exists l', forward vis l = (l', nodes None vis l, true) /\ map erase l' = map erase l.
Proof.
  intros H. destruct (forward vis l) as [[l' os] ok] eqn:E. destruct (forward_spec _ _ _ _ _ E) as [A B]. rewrite (collect_nodes None) in B.
  - injection B as <- <-. exists l'. split; [reflexivity|exact A].
  - intros i m _ Hm. apply out1_off, H. apply nth_error_In in Hm. exact Hm.
Qed.
(** Visited activations are cached. *)
Definition cached (m : qmod) : Prop := is_act m = true -> quant_on m = true -> m_cache m = Some (meta (m_param m)).
Definition ready (m : qmod) : Prop := m_mode m = false /\ m_train m = false /\ (is_act m = true -> m_flag m = true).
Lemma erase_ready m m' : erase m = erase m' -> ready m -> ready m'.
Proof. des m. des' m'. intros H. injection H as -> -> -> -> -> -> -> -> -> -> ->. exact (fun x => x). Qed.
Lemma forward1_cached m m' o : ready m -> forward1 m = Some (m', o) -> cached m'.
Proof.
  intros (A & B & C) H. des m. unfold ready in *. cbn in *. subst. unfold ExportState.forward1, cache_out, quant_on in H. cbn in H.
  unfold cached, is_act, quant_on in *. destruct k as [| | |[|]]; cbn in *; try (injection H as <- _; cbn; discriminate); destruct en; cbn in H; injection H as <- _; cbn; try discriminate;
    try (intros; discriminate); try (destruct f; cbn; intros; discriminate). rewrite (C eq_refl). intros; reflexivity.
Qed.
Lemma forward1_keeps m m' o : ready m -> cached m -> forward1 m = Some (m', o) -> cached m'.
Proof. intros R _. apply forward1_cached, R. Qed.
Lemma forward_cached vis : forall l l' os ok, (forall m, In m l -> ready m) -> forward vis l = (l', os, ok) ->
  forall i m', nth_error l' i = Some m' -> (exists m, nth_error l i = Some m /\ (cached m \/ In i vis)) -> cached m'.
Proof.
  induction vis as [|j r IH]; intros l l' os ok R H i m' Hm' (m & Hm & C); cbn [ExportState.forward] in H.
  - injection H as <- <- <-. rewrite Hm in Hm'. injection Hm' as <-. destruct C as [C|[]]. exact C.
  - destruct (nth_error l j) as [mj|] eqn:E.
    + assert (Rj : ready mj) by (apply R, (nth_error_In _ _ E)).
      assert (Lj : j < length l) by (apply nth_error_Some; rewrite E; discriminate).
      destruct (forward1 mj) as [[mj' o]|] eqn:E1.
      * destruct (forward r (set_nth j mj' l)) as [[l1 os1] ok1] eqn:E2. injection H as <- <- <-.
        eapply (IH _ _ _ _); [|exact E2|exact Hm'|].
        { intros x Hx. apply In_nth_error in Hx as [n Hn]. rewrite nth_set_nth in Hn by exact Lj. destruct (n =? j).
          - injection Hn as <-. eapply erase_ready; [symmetry; apply (forward1_erase _ _ _ E1)|exact Rj].
          - apply R, (nth_error_In _ _ Hn). }
        rewrite nth_set_nth by exact Lj. destruct (Nat.eqb_spec i j) as [->|N].
        { exists mj'. split; [reflexivity|]. left. apply (forward1_cached _ _ _ Rj E1). }
        { exists m. split; [exact Hm|]. destruct C as [C|[C|C]]; [left; exact C|congruence|right; exact C]. }
      * pose proof (out1_off mj (proj1 Rj)) as O. unfold out1 in O. rewrite E1 in O. discriminate.
    + eapply IH; [exact R|exact H|exact Hm'|]. exists m. split; [exact Hm|]. destruct C as [C|[C|C]]; [left; exact C|congruence|right; exact C].
Qed.

(** ** The loops *)
Lemma each_ok f : forall (l l' : list qmod), each f l = (l', true) -> Forall2 (fun m m' => f m = (m', true)) l l'.
Proof.
  induction l as [|m l IH]; intros l' H; cbn [each] in H; [injection H as <-; constructor|].
  destruct (f m) as [m' [|]] eqn:E; [|discriminate]. destruct (each f l) as [r' ok'] eqn:Er. injection H as <- ->. constructor; [exact E|]. apply IH. reflexivity.
Qed.
Lemma each_any f (R : qmod -> qmod -> Prop) : (forall m, R m m) -> (forall m, R m (fst (f m))) -> forall l, Forall2 R l (fst (each f l)).
Proof.
  intros Rr Rf. induction l as [|m l IH]; cbn [each]; [constructor|]. specialize (Rf m). destruct (f m) as [m' [|]]; cbn [fst] in *.
  - destruct (each f l) as [r' ok']. cbn [fst] in *. constructor; assumption.
  - constructor; [exact Rf|]. clear -Rr. induction l; constructor; auto.
Qed.

(** ** What no export changes *)
Lemma ident_erase m m' : erase m = erase m' -> ident m = ident m'.
Proof. des m. des' m'. intros H. injection H as -> -> -> -> -> -> -> -> -> -> ->. reflexivity. Qed.
Lemma wf_erase m m' : erase m = erase m' -> wf m -> wf m'.
Proof. des m. des' m'. intros H. injection H as -> -> -> -> -> -> -> -> -> -> ->. exact (fun x => x). Qed.
Definition keeps (m m' : qmod) : Prop := ident m' = ident m /\ (wf m -> wf m').
Lemma keeps_refl m : keeps m m.
Proof. split; auto. Qed.
Lemma keeps_trans a b c : keeps a b -> keeps b c -> keeps a c.
Proof. intros [A B] [C D]. split; [congruence|auto]. Qed.
Lemma keeps_erase m m' : erase m' = erase m -> keeps m m'.
Proof. intros H. split; [apply ident_erase, H|apply wf_erase; symmetry; exact H]. Qed.
Lemma cons_inj {A} (a b : A) l l' : a :: l = b :: l' -> a = b /\ l = l'.
Proof. intros H. injection H. auto. Qed.
Lemma keeps_list l l' : map erase l' = map erase l -> Forall2 keeps l l'.
Proof.
  revert l'. induction l as [|m l IH]; intros [|m' l'] H; try discriminate; [constructor|]. cbn [map] in H. apply cons_inj in H as [E H].
  constructor; [|apply IH; assumption]. apply keeps_erase, E.
Qed.
Lemma keeps_map f l : (forall m : qmod, keeps m (f m)) -> Forall2 keeps l (map f l).
Proof. intros H. induction l; constructor; auto. Qed.
Lemma keeps_train b m : keeps m (with_train b m).
Proof. des m. split; [reflexivity|exact (fun x => x)]. Qed.
Lemma keeps_handler mgr m : keeps m (fst (set_handler mgr m)).
Proof.
  unfold ExportState.set_handler. destruct (is_proxy m) eqn:Ep; [|apply keeps_refl]. destruct (m_handler m); [apply keeps_refl|]. destruct (handles mgr (m_class m)); [|apply keeps_refl].
  des m. split; [reflexivity|]. intros (A & B & C). split; [|split; assumption]. cbn. intros ->. discriminate.
Qed.
Lemma keeps_getter m : keeps m (fst (getter m)).
Proof.
  unfold ExportState.getter. destruct (m_kind m); try apply keeps_refl. destruct (m_cache m); [apply keeps_refl|].
  destruct (forward1 (with_train false m)) as [[m' o]|] eqn:E; cbn [fst].
  - apply forward1_erase, keeps_erase in E. eapply keeps_trans; [apply keeps_train|]. eapply keeps_trans; [exact E|]. apply keeps_train.
  - apply keeps_train.
Qed.
Lemma keeps_export b hh m : is_proxy m = true -> keeps m (with_export b hh m).
Proof. des m. intros Ep. split; [reflexivity|]. intros (A & B & C). split; [|split; assumption]. cbn. intros ->. discriminate. Qed.
Lemma proxy_ident m m' : ident m' = ident m -> is_proxy m' = is_proxy m /\ is_act m' = is_act m /\ is_bias m' = is_bias m.
Proof. intros H. apply (f_equal (@m_kind P M)) in H. cbn in H. unfold is_proxy, is_act, is_bias. rewrite H. auto. Qed.
Lemma keeps_mode_on m : keeps m (fst (mode_on m)).
Proof.
  unfold ExportState.mode_on. destruct (is_proxy m) eqn:Ep; [|apply keeps_refl]. destruct (m_train m); [apply keeps_refl|].
  destruct (m_handler m) as [[g d]|]; [|apply keeps_refl]. destruct (m_mode m); [apply keeps_refl|]. destruct (quant_on m).
  - pose proof (keeps_getter m) as K. destruct (getter m) as [m1 [v|]]; cbn [fst] in *; [|exact K]. destruct (valid g v); [|exact K]. cbn [fst].
    eapply keeps_trans; [exact K|]. apply keeps_export. rewrite (proj1 (proxy_ident _ _ (proj1 K))). exact Ep.
  - apply keeps_export, Ep.
Qed.
Lemma keeps_mode_off m : keeps m (mode_off m).
Proof. unfold mode_off. destruct (is_proxy m) eqn:E; [apply keeps_export, E|apply keeps_refl]. Qed.
Definition act_or_bias (sel : qmod -> bool) : Prop := forall m, sel m = true -> is_act m = true \/ is_bias m = true.
Lemma keeps_override sel b m : act_or_bias sel -> keeps m (override_flag sel b m).
Proof.
  intros S. unfold override_flag. destruct (sel m) eqn:E; [|apply keeps_refl]. apply S in E. destruct (m_flag_bak m) eqn:F; [apply keeps_refl|].
  des m. subst. split; [reflexivity|]. intros (A & B & C). split; [exact A|]. split; [|exact C]. intros H1 H2. unfold is_act, is_bias in *. cbn in *. destruct E; congruence.
Qed.
Lemma keeps_restore sel m : keeps m (restore_flag sel m).
Proof.
  unfold restore_flag. destruct (sel m); [|apply keeps_refl]. destruct (m_flag_bak m) eqn:F; [|apply keeps_refl].
  des m. subst. split; [reflexivity|]. intros (A & B & C). split; [exact A|]. split; [reflexivity|exact C].
Qed.
Lemma keeps_override_io b m : keeps m (override_io b m).
Proof.
  unfold override_io. destruct (is_act m) eqn:E; [|apply keeps_refl]. destruct (m_io_bak m) eqn:F; [apply keeps_refl|].
  des m. subst. split; [reflexivity|]. intros (A & B & C). split; [exact A|]. split; [exact B|]. cbn. intros H. unfold is_act in *. cbn in *. congruence.
Qed.
Lemma keeps_restore_io m : keeps m (restore_io m).
Proof.
  unfold restore_io. destruct (is_act m); [|apply keeps_refl]. destruct (m_io_bak m) eqn:F; [|apply keeps_refl].
  des m. subst. split; [reflexivity|]. intros (A & B & C). split; [exact A|]. split; [exact B|reflexivity].
Qed.
Lemma sel_act : act_or_bias is_act. Proof. intros m; auto. Qed.
Lemma sel_bias : act_or_bias is_bias. Proof. intros m; auto. Qed.
Lemma keepl_trans (a b c : list qmod) : Forall2 keeps a b -> Forall2 keeps b c -> Forall2 keeps a c.
Proof. intros H K. eapply (Forall2_trans _ _ _ keeps_trans); eassumption. Qed.
Lemma keepl_refl (a : list qmod) : Forall2 keeps a a.
Proof. induction a; constructor; auto using keeps_refl. Qed.
Lemma keeps_cache c l : Forall2 keeps l (fst (cache_inp_out c l)).
Proof.
  unfold ExportState.cache_inp_out. set (l1 := map (override_flag is_act true) _).
  assert (K1 : Forall2 keeps l l1).
  { unfold l1. eapply keepl_trans; [apply (keeps_map (override_io true)); intros; apply keeps_override_io|].
    eapply keepl_trans; [apply (keeps_map (override_flag is_bias true)); intros; apply keeps_override, sel_bias|].
    apply keeps_map. intros; apply keeps_override, sel_act. }
  destruct (forward (c_vis1 c) l1) as [[l2 os] ok] eqn:E. apply forward_spec in E as [E _]. apply keeps_list in E.
  assert (K2 : Forall2 keeps l l2) by (eapply keepl_trans; eassumption). destruct (ok && c_ok1 c); cbn [fst]; [|exact K2].
  eapply keepl_trans; [exact K2|]. eapply keepl_trans; [apply (keeps_map restore_io); intros; apply keeps_restore_io|].
  eapply keepl_trans; [apply (keeps_map (restore_flag is_bias)); intros; apply keeps_restore|]. apply keeps_map. intros; apply keeps_restore.
Qed.
Lemma keeps_each f l : (forall m : qmod, keeps m (fst (f m))) -> Forall2 keeps l (fst (each f l)).
Proof. intros H. apply each_any; [apply keeps_refl|exact H]. Qed.
Lemma keeps_before c l : Forall2 keeps l (fst (before_trace c l)).
Proof.
  unfold ExportState.before_trace. set (l1 := map (with_train false) l).
  assert (K1 : Forall2 keeps l l1) by (apply keeps_map; intros; apply keeps_train).
  pose proof (keeps_each (set_handler (c_mgr c)) l1 (keeps_handler (c_mgr c))) as K2. destruct (each (set_handler (c_mgr c)) l1) as [l2 [|]]; cbn [fst] in *; [|eapply keepl_trans; eassumption].
  pose proof (keeps_cache c l2) as K3. destruct (cache_inp_out c l2) as [l3 [|]]; cbn [fst] in *; [|eauto using keepl_trans].
  eapply keepl_trans; [|apply keeps_each, keeps_mode_on]. eauto using keepl_trans.
Qed.
Lemma keeps_forward vis l l' os ok : forward vis l = (l', os, ok) -> Forall2 keeps l l'.
Proof. intros E. apply forward_spec in E as [E _]. apply keeps_list, E. Qed.
Theorem keeps_onnx c s : Forall2 keeps (s_mods s) (s_mods (fst (export_onnx meta handles valid c s))) /\ s_grads (fst (export_onnx meta handles valid c s)) = s_grads s.
Proof.
  unfold export_onnx. pose proof (keeps_before c (s_mods s)) as K. destruct (before_trace c (s_mods s)) as [l [|]]; cbn [fst] in *; [|split; [exact K|reflexivity]].
  destruct (forward (c_vis2 c) _) as [[l2 os] ok] eqn:E. apply keeps_forward in E.
  assert (K2 : Forall2 keeps (s_mods s) l2).
  { eapply keepl_trans; [exact K|]. eapply keepl_trans; [|exact E]. apply keeps_map. intros; apply keeps_override, sel_act. }
  destruct (ok && c_ok2 c); cbn [fst s_mods s_grads]; (split; [|reflexivity]); [|exact K2].
  eapply keepl_trans; [exact K2|]. eapply keepl_trans; [apply (keeps_map (restore_flag is_act)); intros; apply keeps_restore|].
  eapply keepl_trans; [apply (keeps_map mode_off); intros; apply keeps_mode_off|]. apply keeps_map. intros; apply keeps_train.
Qed.
Theorem keeps_torch c s : Forall2 keeps (s_mods s) (s_mods (fst (export_torch meta handles valid c s)))
  /\ (forall q, snd (export_torch meta handles valid c s) = Exported q -> s_grads (fst (export_torch meta handles valid c s)) = s_grads s).
Proof.
  unfold export_torch. pose proof (keeps_before c (s_mods s)) as K. destruct (before_trace c (s_mods s)) as [l [|]]; cbn [fst snd] in *; [|split; [exact K|discriminate]].
  destruct (forward (c_vis2 c) _) as [[l2 os] ok] eqn:E. apply keeps_forward in E.
  assert (K2 : Forall2 keeps (s_mods s) l2) by (eapply keepl_trans; eassumption).
  destruct (ok && c_ok2 c); cbn [fst snd s_mods s_grads]; [|split; [exact K2|discriminate]]. split; [|reflexivity].
  eapply keepl_trans; [exact K2|]. eapply keepl_trans; [apply (keeps_map mode_off); intros; apply keeps_mode_off|]. apply keeps_map. intros; apply keeps_train.
Qed.

(** ** Successful exports *)
Definition no_bak (m : qmod) : Prop := m_flag_bak m = None /\ m_io_bak m = None.
Lemma restored m : wf m -> no_bak (restore_flag is_act (restore_flag is_bias (restore_io m))).
Proof.
  intros (_ & B & C). unfold restore_io, restore_flag. des m. unfold is_act, is_bias, wf, no_bak in *. cbn in *.
  destruct k as [| | |fu]; cbn in *; try (rewrite (B eq_refl eq_refl)); try (rewrite (C eq_refl)); cbn; try (split; reflexivity).
  - destruct fb; cbn; split; reflexivity.
  - destruct iob; cbn; destruct fb; cbn; split; reflexivity.
Qed.
Lemma no_bak_each f l : (forall m : qmod, no_bak m -> no_bak (fst (f m))) -> Forall no_bak l -> Forall no_bak (fst (each f l)).
Proof.
  intros H. induction 1 as [|m l Hm Hl IH]; cbn [each]; [constructor|]. specialize (H m Hm). destruct (f m) as [m' [|]]; cbn [fst] in *.
  - destruct (each f l). cbn [fst] in *. constructor; assumption.
  - constructor; assumption.
Qed.
Lemma no_bak_erase m m' : erase m = erase m' -> no_bak m -> no_bak m'.
Proof. des m. des' m'. intros H. injection H as -> -> -> -> -> -> -> -> -> -> ->. exact (fun x => x). Qed.
Lemma no_bak_getter m : no_bak m -> no_bak (fst (getter m)).
Proof.
  intros N. unfold ExportState.getter. destruct (m_kind m); try exact N. destruct (m_cache m); [exact N|].
  destruct (forward1 (with_train false m)) as [[m' o]|] eqn:E; cbn [fst]; [|exact N]. apply forward1_erase in E.
  assert (N' : no_bak (with_train false m)) by exact N. apply (no_bak_erase _ _ (eq_sym E)) in N'. exact N'.
Qed.
Lemma no_bak_mode_on m : no_bak m -> no_bak (fst (mode_on m)).
Proof.
  intros N. unfold ExportState.mode_on. destruct (is_proxy m) eqn:Ep; [|exact N]. destruct (m_train m); [exact N|].
  destruct (m_handler m) as [[g d]|]; [|exact N]. destruct (m_mode m); [exact N|]. destruct (quant_on m); [|exact N].
  pose proof (no_bak_getter m N) as K. destruct (getter m) as [m1 [v|]]; cbn [fst] in *; [|exact K]. destruct (valid g v); exact K.
Qed.
Lemma Forall_keeps_wf l l' : Forall2 keeps l l' -> Forall wf l -> Forall wf l'.
Proof. induction 1; intros H'; inversion H'; subst; constructor; [apply H; assumption|auto]. Qed.
Lemma before_no_bak c l l' : Forall wf l -> before_trace c l = (l', true) -> Forall no_bak l'.
Proof.
  intros W H. unfold ExportState.before_trace in H. set (l1 := map (with_train false) l) in *.
  assert (W1 : Forall wf l1) by (eapply Forall_keeps_wf; [apply (keeps_map (with_train false)); intros; apply keeps_train|exact W]).
  pose proof (keeps_each (set_handler (c_mgr c)) l1 (keeps_handler (c_mgr c))) as K2. destruct (each (set_handler (c_mgr c)) l1) as [l2 [|]]; [|discriminate]. cbn [fst] in K2.
  apply Forall_keeps_wf in K2; [|exact W1]. destruct (cache_inp_out c l2) as [l3 [|]] eqn:E3; [|discriminate].
  assert (N3 : Forall no_bak l3).
  { unfold ExportState.cache_inp_out in E3. destruct (forward (c_vis1 c) _) as [[l4 os] ok] eqn:E4. apply keeps_forward in E4.
    destruct (ok && c_ok1 c); [|discriminate]. injection E3 as <-.
    assert (W4 : Forall wf l4).
    { eapply Forall_keeps_wf; [exact E4|]. eapply Forall_keeps_wf; [apply keeps_map; intros; apply keeps_override, sel_act|].
      eapply Forall_keeps_wf; [apply keeps_map; intros; apply keeps_override, sel_bias|]. eapply Forall_keeps_wf; [apply keeps_map; intros; apply keeps_override_io|exact K2]. }
    rewrite !map_map. clear -W4. induction W4; cbn [map]; constructor; [apply restored; assumption|assumption]. }
  pose proof (no_bak_each mode_on l3 no_bak_mode_on N3) as N. rewrite H in N. exact N.
Qed.
Lemma off_clean m : wf m -> no_bak m -> clean (mode_off m).
Proof.
  intros (A & _) [B C]. unfold mode_off. destruct (is_proxy m) eqn:E.
  - des m. repeat split; assumption.
  - unfold is_proxy in E. destruct (m_kind m); try discriminate. destruct (A eq_refl). repeat split; assumption.
Qed.
Lemma Forall_and3 (A B C : qmod -> Prop) l : (forall m, A m -> B m -> C m) -> Forall A l -> Forall B l -> Forall C l.
Proof. intros H FA. induction FA; intros FB; inversion FB; subst; constructor; auto. Qed.
Lemma clean_train b m : clean m -> clean (with_train b m).
Proof. exact (fun x => x). Qed.
Lemma clean_final l ts : Forall wf l -> Forall no_bak l -> Forall (fun m => clean m /\ m_train m = ts) (map (with_train ts) (map mode_off l)).
Proof.
  intros W N. rewrite map_map. apply Forall_map. eapply Forall_and3; [|exact W|exact N]. intros m Wm Nm. cbn. split; [apply clean_train, off_clean; assumption|reflexivity].
Qed.
Lemma restore_override m b : no_bak m -> no_bak (restore_flag is_act (override_flag is_act b m)).
Proof.
  intros [A B]. unfold restore_flag, override_flag. destruct (is_act m) eqn:E.
  - rewrite A. des m. unfold is_act in *. cbn in *. rewrite E. cbn. split; [reflexivity|exact B].
  - rewrite E. split; assumption.
Qed.
Lemma map_erase_Forall (Q : qmod -> Prop) l l' : (forall m m', erase m = erase m' -> Q m -> Q m') -> map erase l' = map erase l -> Forall Q l -> Forall Q l'.
Proof.
  intros H. revert l'. induction l as [|m l IH]; intros [|m' l'] E F; try discriminate; [constructor|]. cbn [map] in E. apply cons_inj in E as [E1 E2]. inversion F; subst.
  constructor; [|apply IH; assumption]. apply (H m); [symmetry; exact E1|assumption].
Qed.
Lemma restore_erase m m' : erase m = erase m' -> erase (restore_flag is_act m) = erase (restore_flag is_act m').
Proof. des m. des' m'. intros H. injection H as -> -> -> -> -> -> -> -> -> -> ->. unfold restore_flag, is_act. cbn. destruct k0; try reflexivity. destruct fb0; reflexivity. Qed.
Theorem onnx_resets c s q : Forall wf (s_mods s) -> snd (export_onnx meta handles valid c s) = Exported q ->
  Forall (fun m => clean m /\ m_train m = root_train (s_mods s)) (s_mods (fst (export_onnx meta handles valid c s))).
Proof.
  intros W. unfold export_onnx. pose proof (keeps_before c (s_mods s)) as K. destruct (before_trace c (s_mods s)) as [l [|]] eqn:Eb; cbn [fst snd] in *; [|discriminate].
  pose proof (before_no_bak _ _ _ W Eb) as N. pose proof (Forall_keeps_wf _ _ K W) as Wl.
  destruct (forward (c_vis2 c) _) as [[l2 os] ok] eqn:E. pose proof (keeps_forward _ _ _ _ _ E) as K2. apply forward_spec in E as [E _].
  destruct (ok && c_ok2 c); cbn [fst snd s_mods]; [|discriminate]. intros _.
  assert (W2 : Forall wf l2) by (eapply Forall_keeps_wf; [exact K2|]; eapply Forall_keeps_wf; [apply keeps_map; intros; apply keeps_override, sel_act|exact Wl]).
  apply clean_final.
  - eapply Forall_keeps_wf; [apply keeps_map; intros; apply keeps_restore|exact W2].
  - apply Forall_map. apply (map_erase_Forall (fun m => no_bak (restore_flag is_act m)) (map (override_flag is_act false) l)).
    + intros a b Hab. apply no_bak_erase, restore_erase, Hab.
    + exact E.
    + apply Forall_map. eapply Forall_impl; [|exact N]. intros a. apply restore_override.
Qed.
Theorem torch_resets c s q : Forall wf (s_mods s) -> snd (export_torch meta handles valid c s) = Exported q ->
  Forall (fun m => clean m /\ m_train m = root_train (s_mods s)) (s_mods (fst (export_torch meta handles valid c s))).
Proof.
  intros W. unfold export_torch. pose proof (keeps_before c (s_mods s)) as K. destruct (before_trace c (s_mods s)) as [l [|]] eqn:Eb; cbn [fst snd] in *; [|discriminate].
  pose proof (before_no_bak _ _ _ W Eb) as N. pose proof (Forall_keeps_wf _ _ K W) as Wl.
  destruct (forward (c_vis2 c) _) as [[l2 os] ok] eqn:E. pose proof (keeps_forward _ _ _ _ _ E) as K2. apply forward_spec in E as [E _].
  destruct (ok && c_ok2 c); cbn [fst snd s_mods]; [|discriminate]. intros _. apply clean_final.
  - eapply Forall_keeps_wf; eassumption.
  - apply (map_erase_Forall no_bak l); [apply no_bak_erase|exact E|exact N].
Qed.

(** ** Exported values *)
Lemma collect_expected src vis : forall l os, (forall i m o, In i vis -> nth_error l i = Some m -> out1 m = Some o -> o = if quant_on m then Some (src, meta (m_param m)) else None) ->
  collect vis l = (os, true) -> os = nodes src vis l.
Proof.
  induction vis as [|i r IH]; intros l os H E; cbn [collect nodes flat_map] in *; [injection E as <-; reflexivity|].
  destruct (nth_error l i) as [m|] eqn:Em.
  - destruct (out1 m) as [o|] eqn:Eo; [|discriminate]. destruct (collect r l) as [os1 ok1] eqn:Ec. injection E as <- ->.
    rewrite (H i m o (or_introl eq_refl) Em Eo). rewrite (IH l os1 (fun j x y Hj => H j x y (or_intror Hj)) Ec).
    destruct (quant_on m); reflexivity.
  - rewrite (IH l os (fun j x y Hj => H j x y (or_intror Hj)) E). reflexivity.
Qed.
Definition view (m : qmod) : kind * P * bool := (m_kind m, m_param m, m_enabled m).
Lemma nodes_view src vis l l' : map view l = map view l' -> nodes src vis l = nodes src vis l'.
Proof.
  intros H. unfold nodes. apply flat_map_ext. intros i. assert (E : option_map view (nth_error l i) = option_map view (nth_error l' i)) by (rewrite <- !nth_error_map, H; reflexivity).
  destruct (nth_error l i) as [m|], (nth_error l' i) as [m'|]; cbn in E; try discriminate; [|reflexivity]. injection E as E1 E2 E3.
  unfold quant_on. rewrite E1, E2, E3. reflexivity.
Qed.
(** After handlers are attached to a clean model. *)
Definition attached (mgr : nat) (m0 m : qmod) : Prop :=
  view m = view m0 /\ m_train m = false /\ m_mode m = false /\ (m_handler m = None \/ m_handler m = Some (mgr, None))
  /\ (quant_on m0 = true -> m_handler m = Some (mgr, None))
  /\ (is_proxy m0 = true -> handles mgr (m_class m0) = true -> m_handler m = Some (mgr, None)).
Lemma quant_on_view m m0 : view m = view m0 -> quant_on m = quant_on m0 /\ m_kind m = m_kind m0 /\ m_param m = m_param m0 /\ is_act m = is_act m0.
Proof. intros E. injection E as E1 E2 E3. unfold quant_on, is_act. rewrite E1, E3. auto. Qed.
Lemma quant_proxy (m : qmod) : quant_on m = true -> is_proxy m = true.
Proof. unfold quant_on, is_proxy. destruct (m_kind m); [discriminate|reflexivity..]. Qed.
Lemma attach mgr l l2 : Forall clean l -> each (set_handler mgr) (map (with_train false) l) = (l2, true) -> Forall2 (fun m0 m => attached mgr m0 m /\ no_bak m) l l2.
Proof.
  intros C E. apply each_ok in E. revert l2 E. induction C as [|m l (A & B & D & F) C IH]; intros l2 E; cbn [map] in E; inversion E as [|? m2 ? r2 E1 E2]; subst; constructor; [|apply IH; assumption].
  unfold ExportState.set_handler in E1. cbn in E1. rewrite B in E1. destruct (is_proxy (with_train false m)) eqn:Ep.
  - destruct (handles mgr (m_class m)) eqn:Eh.
    + injection E1 as <-. split; [|split; assumption]. split; [reflexivity|]. split; [reflexivity|]. split; [exact A|]. split; [right; reflexivity|split; reflexivity].
    + injection E1 as <- Q. split; [|split; assumption]. split; [reflexivity|]. split; [reflexivity|]. split; [exact A|]. split; [left; exact B|]. split; [|congruence].
      intros Q'. change (quant_on (with_train false m)) with (quant_on m) in Q. rewrite Q' in Q. discriminate.
  - injection E1 as <-. split; [|split; assumption]. split; [reflexivity|]. split; [reflexivity|]. split; [exact A|]. split; [left; exact B|].
    change (is_proxy (with_train false m)) with (is_proxy m) in Ep. split; [|congruence]. intros Q'. apply quant_proxy in Q'. congruence.
Qed.
Lemma att_override sel b mgr m0 m : attached mgr m0 m -> attached mgr m0 (override_flag sel b m).
Proof. unfold override_flag. destruct (sel m), (m_flag_bak m); exact (fun x => x). Qed.
Lemma att_restore sel mgr m0 m : attached mgr m0 m -> attached mgr m0 (restore_flag sel m).
Proof. unfold restore_flag. destruct (sel m), (m_flag_bak m); exact (fun x => x). Qed.
Lemma att_override_io b mgr m0 m : attached mgr m0 m -> attached mgr m0 (override_io b m).
Proof. unfold override_io. destruct (is_act m), (m_io_bak m); exact (fun x => x). Qed.
Lemma att_restore_io mgr m0 m : attached mgr m0 m -> attached mgr m0 (restore_io m).
Proof. unfold restore_io. destruct (is_act m), (m_io_bak m); exact (fun x => x). Qed.
Lemma att_erase mgr m0 m m' : erase m = erase m' -> attached mgr m0 m -> attached mgr m0 m'.
Proof. des m. des' m'. intros H. injection H as -> -> -> -> -> -> -> -> -> -> ->. exact (fun x => x). Qed.
Definition overridden (m : qmod) : qmod := override_flag is_act true (override_flag is_bias true (override_io true m)).
Definition restored_all (m : qmod) : qmod := restore_flag is_act (restore_flag is_bias (restore_io m)).
Lemma overridden_ready mgr m0 m : attached mgr m0 m -> no_bak m -> ready (overridden m).
Proof.
  intros (_ & T & O & _) [A B]. assert (F : m_flag_bak (override_flag is_bias true (override_io true m)) = None \/ is_act m = false).
  { unfold override_flag, override_io, is_bias, is_act. des m. subst. destruct k; cbn; auto. }
  unfold overridden, override_flag, override_io, is_act, is_bias, ready. des m. subst. destruct k; cbn; auto using eq_refl; repeat split; try discriminate; auto.
Qed.
Lemma cached_restored m : cached m -> cached (restored_all m).
Proof.
  unfold restored_all, restore_flag, restore_io, cached. des m. unfold is_act, is_bias, quant_on. destruct k; cbn; intros H; try discriminate;
    destruct iob, fb; cbn; exact H.
Qed.
Lemma att_restored mgr m0 m : attached mgr m0 m -> attached mgr m0 (restored_all m).
Proof. intros H. apply att_restore, att_restore, att_restore_io, H. Qed.
Lemma cache_stage c mgr l l2 l3 : Forall2 (fun m0 m => attached mgr m0 m /\ no_bak m) l l2 -> cache_inp_out c l2 = (l3, true) ->
  Forall2 (attached mgr) l l3 /\ forall i m, nth_error l3 i = Some m -> In i (c_vis1 c) -> cached m.
Proof.
  intros A E. unfold ExportState.cache_inp_out in E. rewrite !map_map in E.
  change (map (fun x : qmod => override_flag is_act true (override_flag is_bias true (override_io true x))) l2) with (map overridden l2) in E.
  destruct (forward (c_vis1 c) (map overridden l2)) as [[l4 os] ok] eqn:E4. destruct (ok && c_ok1 c); [|discriminate]. injection E as <-.
  rewrite !map_map. change (map (fun x : qmod => restore_flag is_act (restore_flag is_bias (restore_io x))) l4) with (map restored_all l4).
  assert (A1 : Forall2 (attached mgr) l (map overridden l2)).
  { apply Forall2_map_r. eapply Forall2_imp; [|exact A]. intros a b [H _]. apply att_override, att_override, att_override_io, H. }
  assert (R1 : forall m, In m (map overridden l2) -> ready m).
  { intros m Hm. apply in_map_iff in Hm as (x & <- & Hx). clear -A Hx. induction A as [|a b ? ? [H1 H2] ? IH]; [destruct Hx|]. destruct Hx as [<-|Hx]; [eapply overridden_ready; eassumption|apply IH, Hx]. }
  split.
  - apply Forall2_map_r. apply forward_spec in E4 as [E4 _]. clear -A1 E4. revert l4 E4. induction A1 as [|a b r r2 H A1 IH]; intros [|m4 l4] E; try discriminate; [constructor|].
    cbn [map] in E. apply cons_inj in E as [E1 E2]. constructor; [|apply IH, E2]. apply att_restored. eapply att_erase; [symmetry; exact E1|exact H].
  - intros i m Hm Hi. rewrite nth_error_map in Hm. destruct (nth_error l4 i) as [m4|] eqn:E5; [|discriminate]. injection Hm as <-. apply cached_restored.
    eapply (forward_cached _ _ _ _ _ R1 E4); [exact E5|]. pose proof (proj1 (forward_spec _ _ _ _ _ E4)) as Er.
    assert (Li : i < length (map overridden l2)). { rewrite <- (map_length erase), <- Er, map_length. apply nth_error_Some. rewrite E5. discriminate. }
    destruct (nth_error (map overridden l2) i) as [m2|] eqn:E6; [|apply nth_error_None in E6; lia]. exists m2. split; [reflexivity|right; exact Hi].
Qed.
(** After export mode is enabled. *)
Definition exporting (mgr : nat) (m0 m : qmod) : Prop :=
  view m = view m0 /\ (quant_on m0 = true -> out1 m = Some (Some (Some mgr, meta (m_param m0)))) /\ (quant_on m0 = false -> out1 m = Some None \/ out1 m = None)
  /\ (quant_on m0 = false -> m_kind m0 <> KAct true -> out1 m = Some None)
  /\ (quant_on m0 = false -> m_kind m0 = KAct true -> handles mgr (m_class m0) = true -> out1 m = None).
Lemma getter_value m : m_mode m = false -> cached m -> quant_on m = true -> exists m1, getter m = (m1, Some (meta (m_param m))) /\ erase m1 = erase m.
Proof.
  intros O C Q. unfold ExportState.getter. destruct (m_kind m) eqn:K; try (rewrite O; exists m; split; reflexivity).
  rewrite (C ltac:(unfold is_act; rewrite K; reflexivity) Q). exists m. split; reflexivity.
Qed.
Lemma turn_on_ok mgr m0 m : attached mgr m0 m -> cached m -> (quant_on m0 = true -> valid mgr (meta (m_param m0)) = true) -> snd (mode_on m) = true.
Proof.
  intros (V & T & O & Hh & Hq & _) C Hv. destruct (quant_on_view _ _ V) as (Qv & Kv & Pv & Av). unfold ExportState.mode_on. rewrite T, O. destruct (is_proxy m); [|reflexivity].
  destruct (quant_on m0) eqn:Q.
  - rewrite (Hq eq_refl), Qv. destruct (getter_value m O C Qv) as (m1 & -> & _). rewrite Pv, (Hv eq_refl). reflexivity.
  - rewrite Qv. destruct Hh as [-> | ->]; reflexivity.
Qed.
Lemma turn_on mgr m0 m m' : attached mgr m0 m -> cached m -> mode_on m = (m', true) -> exporting mgr m0 m'.
Proof.
  intros (V & T & O & Hh & Hq & Hp) C E. destruct (quant_on_view _ _ V) as (Qv & Kv & Pv & Av). unfold ExportState.mode_on in E. rewrite T, O in E.
  destruct (quant_on m0) eqn:Q.
  - rewrite (Hq eq_refl) in E. rewrite Qv in E. rewrite (quant_proxy m Qv) in E.
    destruct (getter_value m O C Qv) as (m1 & G & Ee). rewrite G in E. destruct (valid mgr (meta (m_param m))); [|discriminate]. injection E as <-.
    assert (V1 : view m1 = view m) by (des m; des' m1; unfold view; injection Ee as -> -> -> -> -> -> -> -> -> -> ->; reflexivity).
    split; [change (view m1 = view m0); congruence|]. split; [|repeat split; intros; congruence]. intros _. rewrite <- Pv.
    assert (Q1 : quant_on m1 = true) by (apply quant_on_view in V1 as (-> & _); exact Qv). apply quant_on_view in V1 as (_ & K1 & _).
    unfold out1, ExportState.forward1, with_export, quant_on, handler_data. cbn. unfold quant_on in Q1. destruct (m_kind m1) as [| | |[|]]; try discriminate; cbn; try rewrite Q1; reflexivity.
  - rewrite Qv in E. destruct (is_proxy m) eqn:Ep.
    + assert (N : handler_data m = None) by (unfold handler_data; destruct Hh as [-> | ->]; reflexivity).
      assert (X : view m' = view m /\ handler_data m' = None /\ (m_handler m = Some (mgr, None) -> m_mode m' = true)).
      { destruct Hh as [H|H]; rewrite H in E.
        - injection E as <-. split; [reflexivity|]. split; [exact N|]. intros X. congruence.
        - injection E as <-. split; [reflexivity|]. split; [reflexivity|]. reflexivity. }
      destruct X as (V' & N' & Mo). split; [congruence|]. split; [congruence|].
      assert (Q' : quant_on m' = false) by (apply quant_on_view in V' as (-> & _); exact Qv). apply quant_on_view in V' as (_ & K' & _).
      unfold out1, ExportState.forward1. rewrite Q', N'. split; [intros _|split].
      { destruct (m_kind m') as [| | |[|]]; cbn; auto. destruct (m_mode m'); cbn; auto. }
      { intros _ Nk. destruct (m_kind m') as [| | |[|]]; cbn; auto. congruence. }
      { intros _ Kk Hc. rewrite K', Kv, Kk, (Mo (Hp ltac:(unfold is_proxy; rewrite Kk; reflexivity) Hc)). reflexivity. }
    + injection E as <-. split; [exact V|]. split; [congruence|]. unfold is_proxy in Ep. destruct (m_kind m) eqn:K; try discriminate.
      unfold out1, ExportState.forward1. rewrite K. cbn. split; [auto|]. split; [auto|]. congruence.
Qed.
Lemma before_exporting c l l' : Forall clean l -> before_trace c l = (l', true) ->
  forall i m0, nth_error l i = Some m0 -> exists m, nth_error l' i = Some m /\ view m = view m0 /\ (In i (c_vis1 c) \/ is_act m0 = false -> exporting (c_mgr c) m0 m).
Proof.
  intros C E i m0 Hi. unfold ExportState.before_trace in E. destruct (each (set_handler (c_mgr c)) (map (with_train false) l)) as [l2 [|]] eqn:E2; [|discriminate].
  apply attach in E2; [|exact C]. destruct (cache_inp_out c l2) as [l3 [|]] eqn:E3; [|discriminate]. destruct (cache_stage c (c_mgr c) l l2 l3 E2 E3) as [A Cc].
  apply each_ok in E. destruct (Forall2_nth _ _ _ A i m0 Hi) as (m3 & H3 & At). destruct (Forall2_nth _ _ _ E i m3 H3) as (m & Hm & On).
  exists m. split; [exact Hm|]. split.
  - pose proof (keeps_mode_on m3) as [K _]. rewrite On in K. cbn [fst] in K. destruct At as (V & _). unfold view in *.
    rewrite <- V. rewrite (f_equal (@m_kind P M) K : m_kind m = m_kind m3), (f_equal (@m_param P M) K : m_param m = m_param m3), (f_equal (@m_enabled P M) K : m_enabled m = m_enabled m3). reflexivity.
  - intros H. eapply turn_on; [exact At| |exact On]. destruct H as [H|H]; [apply (Cc i m3 H3 H)|].
    intros Ha. destruct At as (V & _). apply quant_on_view in V as (_ & _ & _ & V). congruence.
Qed.
Lemma before_view c l l' : Forall clean l -> before_trace c l = (l', true) -> map view l' = map view l.
Proof.
  intros _ E. pose proof (keeps_before c l) as K. rewrite E in K. cbn [fst] in K. clear E. induction K as [|a b r r' [H _] K IH]; [reflexivity|]. cbn [map]. rewrite IH. f_equal.
  unfold view. rewrite (f_equal (@m_kind P M) H : m_kind b = m_kind a), (f_equal (@m_param P M) H : m_param b = m_param a), (f_equal (@m_enabled P M) H : m_enabled b = m_enabled a). reflexivity.
Qed.
Lemma exported_nodes c l l' l2 l3 os : Forall clean l -> incl (c_vis2 c) (c_vis1 c) -> before_trace c l = (l', true) ->
  (forall i m, nth_error l2 i = Some m -> exists m', nth_error l' i = Some m' /\ view m = view m' /\ out1 m = out1 m') ->
  map view l2 = map view l' -> forward (c_vis2 c) l2 = (l3, os, true) -> os = nodes (Some (c_mgr c)) (c_vis2 c) l.
Proof.
  intros C I E H V F. apply forward_spec in F as [_ F]. rewrite (nodes_view _ _ l l2) by (rewrite V, (before_view c l l' C E); reflexivity).
  apply collect_expected; [|exact F]. intros i m o Hi Hm Ho. destruct (H i m Hm) as (m' & Hm' & Vm & Om).
  destruct (nth_error l i) as [m0|] eqn:E0.
  - destruct (before_exporting c l l' C E i m0 E0) as (mx & Hx & Vx & X). rewrite Hx in Hm'. injection Hm' as <-. rewrite Vx in Vm.
    destruct (X (or_introl (I i Hi))) as (_ & X1 & X2 & _ & _). destruct (quant_on_view _ _ Vm) as (-> & _ & -> & _).
    rewrite Om in Ho. destruct (quant_on m0); [rewrite (X1 eq_refl) in Ho; injection Ho as <-; reflexivity|].
    destruct (X2 eq_refl) as [X3|X3]; rewrite X3 in Ho; [injection Ho as <-; reflexivity|discriminate].
  - apply nth_error_None in E0. assert (length l2 = length l). { rewrite <- (map_length view l2), V, (before_view c l l' C E), map_length. reflexivity. }
    assert (i < length l2) by (apply nth_error_Some; rewrite Hm; discriminate). lia.
Qed.
Theorem onnx_current c s q : Forall clean (s_mods s) -> incl (c_vis2 c) (c_vis1 c) -> snd (export_onnx meta handles valid c s) = Exported q ->
  q = nodes (Some (c_mgr c)) (c_vis2 c) (s_mods s).
Proof.
  intros C I. unfold export_onnx. destruct (before_trace c (s_mods s)) as [l [|]] eqn:Eb; cbn [snd]; [|discriminate].
  destruct (forward (c_vis2 c) _) as [[l2 os] ok] eqn:E. destruct ok; cbn [andb]; [|discriminate]. destruct (c_ok2 c); [|discriminate]. cbn [snd].
  intros H. injection H as <-. eapply (exported_nodes c _ l _ l2 os C I Eb); [| |exact E].
  - intros i m Hm. rewrite nth_error_map in Hm. destruct (nth_error l i) as [m'|]; [|discriminate]. injection Hm as <-. exists m'. split; [reflexivity|].
    unfold override_flag. destruct (is_act m') eqn:Ea, (m_flag_bak m'); try (split; reflexivity). split; [reflexivity|].
    des m'. unfold out1, ExportState.forward1, quant_on, handler_data, cache_out. cbn. destruct k as [| | |[|]]; cbn; try reflexivity; destruct mo, en; cbn; try reflexivity; destruct h as [[? [?|]]|]; reflexivity.
  - rewrite map_map. apply map_ext. intros m. unfold override_flag. destruct (is_act m), (m_flag_bak m); reflexivity.
Qed.
(** ** When an export succeeds *)
Lemma each_true f : forall l : list qmod, Forall (fun m => snd (f m) = true) l -> snd (each f l) = true.
Proof. induction 1 as [|m l H _ IH]; [reflexivity|]. cbn [each]. destruct (f m) as [m' ok]. cbn [snd] in H. subst. destruct (each f l) as [r ok]. exact IH. Qed.
Lemma collect_ok vis : forall l, (forall i m, In i vis -> nth_error l i = Some m -> out1 m <> None) -> snd (collect vis l) = true.
Proof.
  induction vis as [|i r IH]; intros l H; [reflexivity|]. cbn [collect]. specialize (IH l (fun j m Hj => H j m (or_intror Hj))).
  destruct (nth_error l i) as [m|] eqn:E; [|exact IH]. specialize (H i m (or_introl eq_refl) E). destruct (out1 m) as [o|]; [|congruence].
  destruct (collect r l) as [os ok]. exact IH.
Qed.
Lemma collect_fails vis : forall l i m, In i vis -> nth_error l i = Some m -> out1 m = None -> snd (collect vis l) = false.
Proof.
  induction vis as [|j r IH]; intros l i m Hi Hm Ho; [destruct Hi|]. cbn [collect]. destruct Hi as [->|Hi].
  - rewrite Hm, Ho. reflexivity.
  - specialize (IH l i m Hi Hm Ho). destruct (nth_error l j) as [mj|]; [|exact IH]. destruct (out1 mj); [|reflexivity]. destruct (collect r l). exact IH.
Qed.
Definition exportable (c : call) (l : list qmod) : Prop :=
  c_ok1 c = true /\ c_ok2 c = true /\ incl (c_vis2 c) (c_vis1 c)
  /\ (forall i m, nth_error l i = Some m -> quant_on m = true ->
        handles (c_mgr c) (m_class m) = true /\ valid (c_mgr c) (meta (m_param m)) = true /\ (is_act m = true -> In i (c_vis1 c)))
  /\ (forall i m, nth_error l i = Some m -> In i (c_vis2 c) -> m_kind m = KAct true -> m_enabled m = true).
Lemma before_ok c l : Forall clean l -> exportable c l -> snd (before_trace c l) = true.
Proof.
  intros C (O1 & _ & _ & H & _). unfold ExportState.before_trace.
  assert (E2 : snd (each (set_handler (c_mgr c)) (map (with_train false) l)) = true).
  { apply each_true, Forall_map. rewrite Forall_forall in C |- *. intros m Hm. destruct (C m Hm) as (_ & Hn & _). apply In_nth_error in Hm as [i Hi].
    unfold ExportState.set_handler. cbn. rewrite Hn. destruct (is_proxy _); [|reflexivity]. destruct (handles (c_mgr c) (m_class m)) eqn:Eh; [reflexivity|]. cbn.
    destruct (quant_on m) eqn:Q; [|exact (f_equal negb Q)]. destruct (H i m Hi Q) as (H1 & _). congruence. }
  destruct (each (set_handler (c_mgr c)) (map (with_train false) l)) as [l2 ok2] eqn:E. cbn in E2. subst. pose proof (attach _ _ _ C E) as A.
  assert (E3 : snd (cache_inp_out c l2) = true).
  { unfold ExportState.cache_inp_out. destruct (forward_off (c_vis1 c) (map (override_flag is_act true) (map (override_flag is_bias true) (map (override_io true) l2)))) as (l3 & -> & _).
    - intros m Hm. rewrite !map_map in Hm. apply in_map_iff in Hm as (x & <- & Hx). clear -A Hx.
      assert (X : exists m0, attached (c_mgr c) m0 (overridden x)).
      { induction A as [|a b ? ? [H1 H2] ? IH]; [destruct Hx|]. destruct Hx as [<-|Hx]; [|apply IH, Hx]. exists a. apply att_override, att_override, att_override_io, H1. }
      destruct X as (m0 & _ & _ & X & _). exact X.
    - rewrite O1. reflexivity. }
  destruct (cache_inp_out c l2) as [l3 ok3] eqn:E4. cbn in E3. subst. destruct (cache_stage _ _ _ _ _ A E4) as [A3 Cc].
  apply each_true. apply Forall_forall. intros m Hm. apply In_nth_error in Hm as [i Hi].
  assert (X : exists m0, nth_error l i = Some m0 /\ attached (c_mgr c) m0 m).
  { clear -A3 Hi. revert i Hi. induction A3; intros [|i] Hi; try discriminate; [injection Hi as <-; eexists; split; [reflexivity|assumption]|]. apply IHA3, Hi. }
  destruct X as (m0 & H0 & At). apply (turn_on_ok (c_mgr c) m0); [exact At| |].
  - intros Ha Hq. destruct (quant_on_view _ _ (proj1 At)) as (Q & _ & _ & Ac). apply (Cc i m Hi); [|exact Ha|exact Hq]. apply (H i m0 H0); congruence.
  - intros Q. apply (H i m0 H0 Q).
Qed.
Lemma trace_ok c l l' : Forall clean l -> exportable c l -> before_trace c l = (l', true) -> snd (collect (c_vis2 c) l') = true.
Proof.
  intros C (_ & _ & I & _ & H) E. apply collect_ok. intros i m Hi Hm.
  assert (L : length l' = length l) by (rewrite <- (map_length view l'), (before_view c l l' C E), map_length; reflexivity).
  destruct (nth_error l i) as [m0|] eqn:E0; [|apply nth_error_None in E0; assert (i < length l') by (apply nth_error_Some; congruence); lia].
  destruct (before_exporting c l l' C E i m0 E0) as (mx & Hx & _ & X). rewrite Hx in Hm. injection Hm as ->. destruct (X (or_introl (I i Hi))) as (_ & X1 & _ & X3 & _).
  destruct (quant_on m0) eqn:Q; [rewrite (X1 eq_refl); discriminate|]. rewrite X3; [discriminate|reflexivity|]. intros K. specialize (H i m0 E0 Hi K).
  unfold quant_on in Q. rewrite K in Q. congruence.
Qed.
Lemma out1_flag b m : out1 (override_flag is_act b m) = out1 m.
Proof.
  unfold override_flag. destruct (is_act m) eqn:Ea, (m_flag_bak m); try reflexivity.
  des m. unfold out1, ExportState.forward1, quant_on, handler_data, cache_out. cbn. destruct k as [| | |[|]]; cbn; try reflexivity; destruct mo, en; cbn; try reflexivity; destruct h as [[? [?|]]|]; reflexivity.
Qed.
Lemma collect_flag b vis l : collect vis (map (override_flag is_act b) l) = collect vis l.
Proof.
  induction vis as [|i r IH]; [reflexivity|]. cbn [collect]. rewrite IH, nth_error_map. destruct (nth_error l i); [|reflexivity]. cbn [option_map]. rewrite out1_flag. reflexivity.
Qed.
Theorem onnx_succeeds c s : Forall clean (s_mods s) -> exportable c (s_mods s) -> exists q, snd (export_onnx meta handles valid c s) = Exported q.
Proof.
  intros C X. unfold export_onnx. pose proof (before_ok c _ C X) as B. destruct (before_trace c (s_mods s)) as [l ok] eqn:E. cbn in B. subst.
  pose proof (trace_ok c _ _ C X E) as T. destruct (forward (c_vis2 c) _) as [[l2 os] ok2] eqn:F. apply forward_spec in F as [_ F]. rewrite collect_flag in F. rewrite F in T. cbn in T. subst.
  destruct X as (_ & -> & _). eexists. reflexivity.
Qed.
Theorem torch_succeeds c s : Forall clean (s_mods s) -> exportable c (s_mods s) -> exists q, snd (export_torch meta handles valid c s) = Exported q.
Proof.
  intros C X. unfold export_torch. pose proof (before_ok c _ C X) as B. destruct (before_trace c (s_mods s)) as [l ok] eqn:E. cbn in B. subst.
  pose proof (trace_ok c _ _ C X E) as T. destruct (forward (c_vis2 c) _) as [[l2 os] ok2] eqn:F. apply forward_spec in F as [_ F]. rewrite F in T. cbn in T. subst.
  destruct X as (_ & -> & _). eexists. reflexivity.
Qed.
Lemma trace_fails c l l' i m : Forall clean l -> incl (c_vis2 c) (c_vis1 c) -> before_trace c l = (l', true) -> nth_error l i = Some m -> In i (c_vis2 c) ->
  m_kind m = KAct true -> m_enabled m = false -> handles (c_mgr c) (m_class m) = true -> snd (collect (c_vis2 c) l') = false.
Proof.
  intros C I E Hm Hi K En Hh. destruct (before_exporting c l l' C E i m Hm) as (mx & Hx & _ & X). destruct (X (or_introl (I i Hi))) as (_ & _ & _ & _ & X4).
  eapply collect_fails; [exact Hi|exact Hx|]. apply X4; [unfold quant_on; rewrite K; exact En|exact K|exact Hh].
Qed.
Theorem onnx_disabled c s i m : Forall clean (s_mods s) -> incl (c_vis2 c) (c_vis1 c) -> nth_error (s_mods s) i = Some m -> In i (c_vis2 c) ->
  m_kind m = KAct true -> m_enabled m = false -> handles (c_mgr c) (m_class m) = true -> snd (export_onnx meta handles valid c s) = Raised.
Proof.
  intros C I Hm Hi K En Hh. unfold export_onnx. destruct (before_trace c (s_mods s)) as [l [|]] eqn:E; [|reflexivity].
  pose proof (trace_fails c _ _ i m C I E Hm Hi K En Hh) as T. destruct (forward (c_vis2 c) _) as [[l2 os] ok2] eqn:F. apply forward_spec in F as [_ F]. rewrite collect_flag in F. rewrite F in T. cbn in T. subst. reflexivity.
Qed.
Theorem torch_disabled c s i m : Forall clean (s_mods s) -> incl (c_vis2 c) (c_vis1 c) -> nth_error (s_mods s) i = Some m -> In i (c_vis2 c) ->
  m_kind m = KAct true -> m_enabled m = false -> handles (c_mgr c) (m_class m) = true -> snd (export_torch meta handles valid c s) = Raised.
Proof.
  intros C I Hm Hi K En Hh. unfold export_torch. destruct (before_trace c (s_mods s)) as [l [|]] eqn:E; [|reflexivity].
  pose proof (trace_fails c _ _ i m C I E Hm Hi K En Hh) as T. destruct (forward (c_vis2 c) _) as [[l2 os] ok2] eqn:F. apply forward_spec in F as [_ F]. rewrite F in T. cbn in T. subst. reflexivity.
Qed.
Theorem torch_current c s q : Forall clean (s_mods s) -> incl (c_vis2 c) (c_vis1 c) -> snd (export_torch meta handles valid c s) = Exported q ->
  q = nodes (Some (c_mgr c)) (c_vis2 c) (s_mods s).
Proof.
  intros C I. unfold export_torch. destruct (before_trace c (s_mods s)) as [l [|]] eqn:Eb; cbn [snd]; [|discriminate].
  destruct (forward (c_vis2 c) _) as [[l2 os] ok] eqn:E. destruct ok; cbn [andb]; [|discriminate]. destruct (c_ok2 c); [|discriminate]. cbn [snd].
  intros H. injection H as <-. eapply (exported_nodes c _ l _ l2 os C I Eb); [| |exact E]; [|reflexivity].
  intros i m Hm. exists m. split; [exact Hm|split; reflexivity].
Qed.
End Proofs.
