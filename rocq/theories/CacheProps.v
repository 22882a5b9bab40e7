(** C49 (cached inference weights), C71 (inference mode computes what evaluation computes),
    C72 (what is left behind by inference mode). *)
From Coq Require Import List Bool Arith Lia ZArith.
From Verif Require Import Cache.
Import ListNotations.

Section Spec.
Context {W V M P X A S : Type}.
Variable tqw : W -> V * M.
Variable rqw : M -> W -> V.
Variable plainw : W -> V.
Variable tqa : P -> X -> A.
Variable sca : P -> S.
Variable rqa : S -> X -> A.
Variable plaina : X -> A.

Notation wop := (@wop W).
Notation wproxy := (@wproxy W V M).
Notation wp_forward := (wp_forward tqw rqw plainw).
Notation wp_run := (wp_run tqw rqw plainw).
Notation wp_step := (wp_step tqw rqw plainw).

(** ** Specification of histories: the last value given to a setting, [d] if none. *)
Fixpoint last_of {B} (f : wop -> option B) (d : B) (h : list wop) : B :=
  match h with
  | [] => d
  | o :: h' => last_of f (match f o with Some b => b | None => d end) h'
  end.
Definition weight_of w0 h := last_of (fun o => match o with WParam w => Some w | _ => None end) w0 h.
Definition training_of h := last_of (fun o => match o with WTrain b => Some b | _ => None end) true h.
Definition enabled_of h := last_of (fun o => match o with WEnable b => Some b | _ => None end) true h.
Definition caching_of h := last_of (fun o => match o with WFlag b => Some b | _ => None end) false h.
Definition meta_of h := last_of (fun o => match o with WMeta b => Some b | _ => None end) false h.

Lemma last_of_app {B} (f : wop -> option B) d h o :
  last_of f d (h ++ [o]) = match f o with Some b => b | None => last_of f d h end.
Proof.
  revert d. induction h as [|x h IH]; intros d; cbn [last_of app]; [reflexivity|apply IH].
Qed.

(** An evaluation after history [h] with caching on. *)
Definition caching_eval (h : list wop) : Prop :=
  training_of h = false /\ enabled_of h = true /\ caching_of h = true.

(** [h] = [h1], one evaluation, [h2]: the first caching evaluation since caching was last turned
    off, and caching not turned off since. *)
Definition first_eval (h h1 : list wop) : Prop :=
  exists h2, h = h1 ++ WForward :: h2 /\ caching_eval h1 /\ ~ In (WFlag false) h2 /\
  forall h3 h4, h1 = h3 ++ WForward :: h4 -> caching_eval h3 -> In (WFlag false) h4.

Lemma wp_run_app h o s : wp_run (h ++ [o]) s = wp_step o (wp_run h s).
Proof. unfold Cache.wp_run. rewrite fold_left_app. reflexivity. Qed.

Lemma settings w0 h :
  let s := wp_run h (wp_new w0) in
  wp_param s = weight_of w0 h /\ wp_training s = training_of h /\ wp_enabled s = enabled_of h /\
  wp_flag s = caching_of h /\ wp_meta s = meta_of h /\ wp_export s = false.
Proof.
  induction h as [|o h IH] using rev_ind; [cbn; repeat split|].
  rewrite wp_run_app. cbn zeta in *.
  unfold weight_of, training_of, enabled_of, caching_of, meta_of in *. rewrite !last_of_app.
  destruct IH as (A1 & A2 & A3 & A4 & A5 & A6).
  destruct o; try (cbn; repeat split; assumption).
  cbn [Cache.wp_step]. unfold Cache.wp_forward. destruct (wp_enabled _) eqn:E.
  - rewrite A6. cbn [fst]. destruct (_ && _); cbn; repeat split; try assumption; congruence.
  - cbn. repeat split; try assumption; congruence.
Qed.

(** Whatever happened before - caching switched on or off, training, earlier evaluations of other
    weights - calling the proxy outside export mode quantizes the weight it is given. *)
Theorem C49_forward_is_fresh w0 h x :
  snd (wp_forward x (wp_run h (wp_new w0))) =
  Some (if enabled_of h then fst (tqw x) else plainw x).
Proof.
  destruct (settings w0 h) as (_ & _ & E & _ & _ & X6). cbn zeta in *.
  unfold Cache.wp_forward. rewrite E, X6. destruct (enabled_of h); reflexivity.
Qed.

Lemma app_snoc_inv {B} (l1 l2 : list B) x y l :
  l ++ [x] = l1 ++ y :: l2 ->
  (l2 = [] /\ l = l1 /\ x = y) \/ exists l2', l2 = l2' ++ [x] /\ l = l1 ++ y :: l2'.
Proof.
  intros H. destruct l2 as [|z l2'] using rev_ind.
  - left. apply app_inj_tail in H. tauto.
  - right. exists l2'. rewrite app_comm_cons, app_assoc in H. apply app_inj_tail in H.
    destruct H as [-> ->]. split; reflexivity.
Qed.

Lemma in_snoc {B} (x y : B) l : In x (l ++ [y]) <-> In x l \/ x = y.
Proof. rewrite in_app_iff. cbn. intuition. Qed.

Lemma cache_none w0 h :
  wp_cache (wp_run h (wp_new w0)) = None ->
  forall h3 h4, h = h3 ++ WForward :: h4 -> caching_eval h3 -> In (WFlag false) h4.
Proof.
  induction h as [|o h IH] using rev_ind; intros N h3 h4 E C; [destruct h3; discriminate|].
  rewrite wp_run_app in N. destruct (settings w0 h) as (A1 & A2 & A3 & A4 & A5 & A6). cbn zeta in *.
  apply app_snoc_inv in E. destruct E as [(-> & -> & ->)|(h4' & -> & E)].
  - exfalso. destruct C as (C1 & C2 & C3). cbn in N. unfold Cache.wp_forward in N.
    rewrite A3, A6, A2, A4, C1, C2, C3 in N. cbn in N.
    destruct (wp_cache (wp_run h3 (wp_new w0))) eqn:Ec; cbn in N; congruence.
  - rewrite in_snoc. destruct (wp_cache (wp_run h (wp_new w0))) as [c|] eqn:Ec.
    + right. destruct o; cbn in N; try congruence.
      * destruct b; [congruence|reflexivity].
      * exfalso. unfold Cache.wp_forward in N. rewrite A3 in N.
        destruct (enabled_of h); cbn in N; [|congruence].
        rewrite A6 in N. cbn in N. rewrite Ec, andb_false_r in N. cbn in N. congruence.
    + left. apply (IH eq_refl h3 h4' E C).
Qed.

(** The cache is exactly the quantization of the weight at the first caching evaluation since
    caching was last turned off. *)
Theorem C49_cache_content w0 h c :
  wp_cache (wp_run h (wp_new w0)) = Some c <->
  exists h1, first_eval h h1 /\ c = cached_io (tqw (weight_of w0 h1)) (meta_of h1).
Proof.
  revert c. induction h as [|o h IH] using rev_ind; intros c.
  - cbn. split; [discriminate|]. intros (h1 & (h2 & E & _) & _). destruct h1; discriminate.
  - rewrite wp_run_app. destruct (settings w0 h) as (A1 & A2 & A3 & A4 & A5 & A6). cbn zeta in *.
    assert (Keep : o <> WFlag false ->
      wp_cache (wp_step o (wp_run h (wp_new w0))) = wp_cache (wp_run h (wp_new w0)) ->
      (o = WForward -> ~ caching_eval h \/ wp_cache (wp_run h (wp_new w0)) <> None) ->
      wp_cache (wp_step o (wp_run h (wp_new w0))) = Some c <->
      exists h1, first_eval (h ++ [o]) h1 /\ c = cached_io (tqw (weight_of w0 h1)) (meta_of h1)).
    { intros No K Fw. rewrite K, IH. split.
      - intros (h1 & (h2 & -> & C1 & C2 & C3) & Ec). exists h1. split; [|assumption].
        exists (h2 ++ [o]). rewrite <- app_assoc. split; [reflexivity|]. split; [assumption|].
        split; [|assumption]. rewrite in_snoc. intros [I|I]; [tauto|congruence].
      - intros (h1 & (h2 & E & C1 & C2 & C3) & Ec).
        apply app_snoc_inv in E. destruct E as [(-> & -> & ->)|(h2' & -> & ->)].
        + exfalso. destruct (Fw eq_refl) as [F|F]; [apply F; assumption|].
          destruct (wp_cache (wp_run h1 (wp_new w0))) as [c'|] eqn:Ec'; [|congruence].
          destruct (proj1 (IH c') eq_refl) as (h3 & (h4 & -> & D1 & D2 & D3) & _).
          apply D2. apply (C3 h3 h4 eq_refl D1).
        + exists h1. split; [|assumption]. exists h2'. split; [reflexivity|].
          rewrite in_snoc in C2. tauto. }
    destruct o; try (apply Keep; [discriminate|reflexivity|discriminate]).
    + destruct b.
      * apply Keep; [discriminate|reflexivity|discriminate].
      * cbn. split; [discriminate|]. intros (h1 & (h2 & E & C1 & C2 & C3) & Ec).
        exfalso. apply app_snoc_inv in E. destruct E as [(_ & _ & E)|(h2' & -> & _)]; [discriminate|].
        apply C2. rewrite in_snoc. tauto.
    + cbn [Cache.wp_step].
      destruct (wp_cache (wp_run h (wp_new w0))) as [c'|] eqn:Ec'.
      * apply Keep; [discriminate| |right; congruence].
        cbn. unfold Cache.wp_forward. rewrite A3. destruct (enabled_of h); cbn; [|congruence]. rewrite A6. cbn.
        rewrite Ec', andb_false_r. cbn. congruence.
      * destruct (training_of h) eqn:Et;
          [|destruct (enabled_of h) eqn:Ee; [destruct (caching_of h) eqn:Eca|]].
        -- apply Keep; [discriminate| |left; intros (? & ? & ?); congruence].
           cbn. unfold Cache.wp_forward. rewrite A3. destruct (enabled_of h); cbn; [|congruence]. rewrite A6, A2.
           cbn. congruence.
        -- unfold Cache.wp_forward. rewrite A3, A6, A2, A4, Ec', A1, A5. cbn. split.
           ++ intros E. injection E as <-. exists h. split; [|reflexivity]. exists [].
              split; [reflexivity|]. split; [repeat split; assumption|]. split; [cbn; tauto|].
              apply (cache_none w0 h Ec').
           ++ intros (h1 & (h2 & E & C1 & C2 & C3) & Ec). f_equal. symmetry. rewrite Ec.
              apply app_snoc_inv in E. destruct E as [(-> & -> & _)|(h2' & -> & ->)];
                [reflexivity|].
              exfalso. apply C2. rewrite in_snoc. left.
              apply (cache_none w0 _ Ec' h1 h2' eq_refl C1).
        -- apply Keep; [discriminate| |left; intros (? & ? & ?); congruence].
           cbn. unfold Cache.wp_forward. rewrite A3. cbn.
           rewrite A6, A2, A4. cbn. congruence.
        -- apply Keep; [discriminate| |left; intros (? & ? & ?); congruence].
           cbn. unfold Cache.wp_forward. rewrite A3. cbn. congruence.
Qed.

(** ** Inference mode *)

Notation model := (@model W V M P S).
Notation step := (@step W P X).
Notation run := (run tqw rqw plainw tqa sca rqa plaina).
Notation md_forward := (md_forward tqw rqw plainw tqa sca rqa plaina).
Notation md_forwards := (md_forwards tqw rqw plainw tqa sca rqa plaina).
Notation md_session := (md_session tqw rqw plainw tqa sca rqa plaina).

(** The inference handlers reproduce the quantizers on the tensor their metadata was taken from
    (for the integer and minifloat handlers this is C55). *)
Hypothesis rqw_ok : forall w, rqw (snd (tqw w)) w = fst (tqw w).
Hypothesis rqa_ok : forall p x, rqa (sca p) x = tqa p x.

(** What a user expects of a program: every forward pass uses the quantization of the current
    weight and activation parameters; from the second pass of an (enabled) inference session on,
    layers return plain tensors. *)
Fixpoint expected (w : W) (p : P) (rqt : bool) (sts : list step) : list (A * V * bool) :=
  match sts with
  | [] => []
  | SWeight w' :: r => expected w' p rqt r
  | SAct p' :: r => expected w p' rqt r
  | STrain _ :: r => expected w p rqt r
  | SForward x :: r => (tqa p x, fst (tqw w), rqt) :: expected w p rqt r
  | SSession c xs :: r =>
      match xs with
      | [] => []
      | x :: xs' => (tqa p x, fst (tqw w), rqt)
                    :: map (fun x => (tqa p x, fst (tqw w), if ct_enabled c then false else rqt)) xs'
      end ++ expected w p rqt r
  end.

(** Programs: inference sessions are entered in evaluation mode and run at least one forward pass;
    every [with] statement builds its own context object. *)
Fixpoint well_formed (tr : bool) (ids : list nat) (sts : list step) : Prop :=
  match sts with
  | [] => True
  | STrain b :: r => well_formed b ids r
  | SSession c xs :: r =>
      xs <> [] /\ tr = false /\ ~ In (ct_id c) ids /\ well_formed tr (ct_id c :: ids) r
  | _ :: r => well_formed tr ids r
  end.

Record inv (w : W) (p : P) (rqt tr : bool) (ids : list nat) (s : model) : Prop := {
  i_w : wp_param (md_w s) = w; i_wt : wp_training (md_w s) = tr;
  i_we : wp_enabled (md_w s) = true; i_wx : wp_export (md_w s) = false;
  i_wh : wp_handler (md_w s) = None;
  i_wc : forall v m, wp_cache (md_w s) = Some (v, m) -> v = None;
  i_wf : wp_flag (md_w s) = true -> wp_meta (md_w s) = true;
  i_p : ap_param (md_a s) = p; i_at : ap_training (md_a s) = tr;
  i_ae : ap_enabled (md_a s) = true; i_ax : ap_export (md_a s) = false;
  i_ah : ap_handler (md_a s) = None; i_af : ap_flag (md_a s) = false;
  i_hk : md_hooks s = []; i_rq : md_rqt s = rqt;
  i_sv : forall k, ~ In k ids -> md_saved s k = None }.

Lemma forward_inv x0 w p rqt tr ids s x :
  inv w p rqt tr ids s ->
  exists s', md_forward x0 x s = Some (s', (tqa p x, fst (tqw w), rqt)) /\ inv w p rqt tr ids s'.
Proof.
  intros [A1 A2 A3 A4 A5 A6 A6' B1 B2 B3 B4 B5 B6 H1 H2 H3].
  destruct s as [[w1 wt we wf wm wc wx wh] [p1 at' ae af ac ax ah] hk rq sv].
  cbn [md_w md_a md_hooks md_rqt md_saved wp_param wp_training wp_enabled wp_flag wp_meta wp_cache
       wp_export wp_handler ap_param ap_training ap_enabled ap_flag ap_cache ap_export ap_handler] in *.
  subst. unfold Cache.md_forward, Cache.ap_forward, Cache.wp_forward. cbn.
  rewrite andb_false_r. cbn.
  destruct (negb tr && wf && match wc with Some _ => false | None => true end) eqn:Ec.
  - eexists. split; [reflexivity|]. constructor; cbn; auto.
    intros v m E. apply andb_prop in Ec. destruct Ec as [Ec _]. apply andb_prop in Ec.
    destruct Ec as [_ ->]. rewrite (A6' eq_refl) in E. injection E as <- _. reflexivity.
  - eexists. split; [reflexivity|]. constructor; cbn; auto.
Qed.

(** After the first forward pass of a session. *)
Record sess (w : W) (p : P) (rqt : bool) (ids : list nat) (c : ctx) (s : model) : Prop := {
  s_w : wp_param (md_w s) = w; s_wt : wp_training (md_w s) = false;
  s_we : wp_enabled (md_w s) = true; s_wx : wp_export (md_w s) = true;
  s_wh : exists v, wp_handler (md_w s) = Some (Some (v, snd (tqw w))) /\
                   (v = None \/ v = Some (fst (tqw w)));
  s_wc : ct_cachew c = false -> forall v m, wp_cache (md_w s) = Some (v, m) -> v = None;
  s_wm : wp_meta (md_w s) = negb (ct_cachew c);
  s_p : ap_param (md_a s) = p; s_at : ap_training (md_a s) = false;
  s_ae : ap_enabled (md_a s) = true; s_ax : ap_export (md_a s) = true;
  s_ah : ap_handler (md_a s) = Some (Some (sca p));
  s_hk : md_hooks s = []; s_rq : md_rqt s = false;
  s_sv : md_saved s (ct_id c) = Some rqt;
  s_sv' : forall k, ~ In k (ct_id c :: ids) -> md_saved s k = None }.

Lemma first_forward x0 w p rqt ids s x c :
  inv w p rqt false ids s -> ct_enabled c = true ->
  exists s', md_forward x0 x (md_enter c s) = Some (s', (tqa p x, fst (tqw w), rqt)) /\
             sess w p rqt ids c s'.
Proof.
  intros [A1 A2 A3 A4 A5 A6 A6' B1 B2 B3 B4 B5 B6 H1 H2 H3] En.
  destruct s as [[w1 wt we wf wm wc wx wh] [p1 at' ae af ac ax ah] hk rq sv].
  cbn [md_w md_a md_hooks md_rqt md_saved wp_param wp_training wp_enabled wp_flag wp_meta wp_cache
       wp_export wp_handler ap_param ap_training ap_enabled ap_flag ap_cache ap_export ap_handler] in *.
  subst. unfold md_enter. rewrite En.
  unfold Cache.md_forward, Cache.ap_forward, Cache.wp_forward. cbn.
  destruct wc as [[v m]|]; cbn.
  - unfold md_hook, md_set_export, wp_set_export, ap_set_export. cbn.
    unfold wp_prepare, Cache.wp_forward. cbn.
    destruct (Nat.eq_dec (ct_id c) (ct_id c)) as [_|F]; [|congruence].
    eexists. split; [reflexivity|]. rewrite (A6 v m eq_refl). constructor; cbn; auto.
    + exists None. split; [|left; reflexivity]. destruct (negb (ct_cachew c)); reflexivity.
    + intros _ v' m' E. congruence.
    + rewrite Nat.eqb_refl. reflexivity.
    + intros k Hk. destruct (Nat.eqb_spec k (ct_id c)) as [->|]; [tauto|]. apply H3. tauto.
  - unfold md_hook, md_set_export, wp_set_export, ap_set_export. cbn.
    unfold wp_prepare, Cache.wp_forward. cbn.
    destruct (Nat.eq_dec (ct_id c) (ct_id c)) as [_|F]; [|congruence].
    eexists. split; [reflexivity|]. constructor; cbn; auto.
    + destruct (ct_cachew c); cbn; [exists (Some (fst (tqw w)))|exists None]; auto.
    + intros E v' m' K. rewrite E in K. injection K as <- _. reflexivity.
    + rewrite Nat.eqb_refl. reflexivity.
    + intros k Hk. destruct (Nat.eqb_spec k (ct_id c)) as [->|]; [tauto|]. apply H3. tauto.
Qed.

Lemma later_forward x0 w p rqt ids s x c :
  sess w p rqt ids c s ->
  exists s', md_forward x0 x s = Some (s', (tqa p x, fst (tqw w), false)) /\
             sess w p rqt ids c s'.
Proof.
  intros [A1 A2 A3 A4 A5 A6 A6' B1 B2 B3 B4 B5 H1 H2 H3 H4].
  destruct s as [[w1 wt we wf wm wc wx wh] [p1 at' ae af ac ax ah] hk rq sv].
  cbn [md_w md_a md_hooks md_rqt md_saved wp_param wp_training wp_enabled wp_flag wp_meta wp_cache
       wp_export wp_handler ap_param ap_training ap_enabled ap_flag ap_cache ap_export ap_handler] in *.
  destruct A5 as (v & -> & Hv). subst.
  unfold Cache.md_forward, Cache.ap_forward, Cache.wp_forward. cbn.
  assert (E : wh_forward rqw (v, snd (tqw w)) w = fst (tqw w)).
  { unfold wh_forward. cbn. destruct Hv as [->| ->]; [apply rqw_ok|reflexivity]. }
  rewrite E, rqa_ok. destruct af; cbn; (eexists; split; [reflexivity|]);
    constructor; cbn; auto; exists v; auto.
Qed.

Lemma later_forwards x0 w p rqt ids c xs s :
  sess w p rqt ids c s ->
  exists s', md_forwards x0 xs s = Some (s', map (fun x => (tqa p x, fst (tqw w), false)) xs) /\
             sess w p rqt ids c s'.
Proof.
  revert s. induction xs as [|x xs IH]; intros s I; cbn [Cache.md_forwards map]; [eauto|].
  destruct (later_forward x0 w p rqt ids s x c I) as (s1 & -> & I1).
  destruct (IH s1 I1) as (s2 & -> & I2). eauto.
Qed.

Lemma plain_forwards x0 w p rqt tr ids xs s :
  inv w p rqt tr ids s ->
  exists s', md_forwards x0 xs s = Some (s', map (fun x => (tqa p x, fst (tqw w), rqt)) xs) /\
             inv w p rqt tr ids s'.
Proof.
  revert s. induction xs as [|x xs IH]; intros s I; cbn [Cache.md_forwards map]; [eauto|].
  destruct (forward_inv x0 w p rqt tr ids s x I) as (s1 & -> & I1).
  destruct (IH s1 I1) as (s2 & -> & I2). eauto.
Qed.

Lemma inv_weaken w p rqt tr ids k s : inv w p rqt tr ids s -> inv w p rqt tr (k :: ids) s.
Proof.
  intros [A1 A2 A3 A4 A5 A6 A6' B1 B2 B3 B4 B5 B6 H1 H2 H3]. constructor; auto.
  intros k' Hk. apply H3. cbn in Hk. tauto.
Qed.

Lemma session_inv x0 w p rqt ids s x xs c :
  inv w p rqt false ids s -> ~ In (ct_id c) ids ->
  exists s', md_session x0 c (x :: xs) s =
    Some (s', (tqa p x, fst (tqw w), rqt)
              :: map (fun x => (tqa p x, fst (tqw w), if ct_enabled c then false else rqt)) xs) /\
    inv w p rqt false (ct_id c :: ids) s'.
Proof.
  intros I Hc. unfold Cache.md_session. cbn [Cache.md_forwards].
  destruct (ct_enabled c) eqn:En.
  - destruct (first_forward x0 w p rqt ids s x c I En) as (s1 & -> & S1).
    destruct (later_forwards x0 w p rqt ids c xs s1 S1) as (s2 & -> & S2).
    destruct S2 as [A1 A2 A3 A4 A5 A6 A6' B1 B2 B3 B4 B5 H1 H2 H3 H4].
    destruct s2 as [[w1 wt we wf wm wc wx wh] [p1 at' ae af ac ax ah] hk rq sv].
    cbn [md_w md_a md_hooks md_rqt md_saved wp_param wp_training wp_enabled wp_flag wp_meta wp_cache
       wp_export wp_handler ap_param ap_training ap_enabled ap_flag ap_cache ap_export ap_handler] in *.
    unfold md_exit. destruct (ct_cachew c) eqn:Ec; cbn.
    + eexists. split; [reflexivity|]. constructor; cbn; auto; try discriminate. rewrite H3. reflexivity.
    + eexists. split; [reflexivity|]. constructor; cbn; auto.
      * exact (A6 eq_refl).
      * rewrite H3. reflexivity.
  - assert (E : md_enter c s = s) by (unfold md_enter; rewrite En; reflexivity). rewrite E.
    destruct (forward_inv x0 w p rqt false ids s x I) as (s1 & -> & I1).
    destruct (plain_forwards x0 w p rqt false ids xs s1 I1) as (s2 & -> & I2).
    destruct I2 as [A1 A2 A3 A4 A5 A6 A6' B1 B2 B3 B4 B5 B6 H1 H2 H3].
    destruct s2 as [[w1 wt we wf wm wc wx wh] [p1 at' ae af ac ax ah] hk rq sv].
    cbn [md_w md_a md_hooks md_rqt md_saved wp_param wp_training wp_enabled wp_flag wp_meta wp_cache
       wp_export wp_handler ap_param ap_training ap_enabled ap_flag ap_cache ap_export ap_handler] in *.
    assert (K : sv (ct_id c) = None) by (apply H3; assumption).
    unfold md_exit. destruct (ct_cachew c) eqn:Ec; cbn; rewrite K;
      (eexists; split; [reflexivity|]); constructor; cbn; auto; try discriminate;
      intros k Hk; apply H3; tauto.
Qed.

Lemma run_inv x0 sts w p rqt tr ids s :
  inv w p rqt tr ids s -> well_formed tr ids sts ->
  exists s', run x0 sts s = Some (s', expected w p rqt sts).
Proof.
  revert w p tr ids s. induction sts as [|st sts IH]; intros w p tr ids s I WF;
    cbn [Cache.run expected]; [eauto|].
  destruct st as [w'|p'|b|x|c xs]; cbn [run_step].
  - destruct (IH w' p tr ids (md_with_w (wp_set_param w') s)) as (s' & ->); [|exact WF|eauto].
    destruct I; constructor; cbn; auto.
  - destruct (IH w p' tr ids (md_with_a (ap_set_param p') s)) as (s' & ->); [|exact WF|eauto].
    destruct I; constructor; cbn; auto.
  - destruct (IH w p b ids (md_train b s)) as (s' & ->); [|exact WF|eauto].
    destruct I; constructor; cbn; auto.
  - destruct (plain_forwards x0 w p rqt tr ids [x] s I) as (s1 & -> & I1).
    destruct (IH w p tr ids s1 I1 WF) as (s' & ->). cbn. eauto.
  - cbn [well_formed] in WF. destruct WF as (Hx & -> & Hc & WF).
    destruct xs as [|x xs]; [congruence|].
    destruct (session_inv x0 w p rqt ids s x xs c I Hc) as (s1 & -> & I1).
    destruct (IH w p false (ct_id c :: ids) s1 I1 WF) as (s' & ->). eauto.
Qed.

(** For every program of weight and activation-quantizer updates, train/eval switches, forward
    passes and inference sessions (with or without weight caching, enabled or not, in any order
    and number), every forward pass - inside sessions too - computes with the quantization of the
    current parameters, and layers return quantized tensors again after each session. *)
Theorem C71_inference_mode_is_faithful x0 w p rqt sts :
  well_formed true [] sts ->
  exists s', run x0 sts (md_new w p rqt) = Some (s', expected w p rqt sts).
Proof.
  apply run_inv. constructor; cbn; auto; discriminate.
Qed.

(** Running a session on a model in training mode fails. *)
Theorem C71_training_session_raises x0 w p rqt c x xs :
  ct_enabled c = true ->
  md_session x0 c (x :: xs) (md_new w p rqt) = None.
Proof.
  intros En. unfold Cache.md_session, md_enter. rewrite En. cbn.
  destruct (Nat.eq_dec (ct_id c) (ct_id c)); [|congruence]. reflexivity.
Qed.
End Spec.

(** ** Concrete proxies: weights rounded to multiples of the metadata. *)
Section Concrete.
Local Open Scope Z_scope.
Definition q4 (m w : Z) : Z := (w / m) * m.
(** The scale of a weight: 4 for large weights, 2 for small ones. *)
Definition tqw0 (w : Z) : Z * Z := (if Z.ltb w 100 then q4 2 w else q4 4 w, if Z.ltb w 100 then 2 else 4).
Definition tqa0 (p x : Z) : Z := q4 p x.
Definition idz (x : Z) : Z := x.

Notation run0 := (run tqw0 q4 idz tqa0 idz q4 idz).

Example C71_hypotheses_hold :
  (forall w, q4 (snd (tqw0 w)) w = fst (tqw0 w)) /\ (forall p x, q4 (idz p) x = tqa0 p x).
Proof.
  split; [|reflexivity]. intros w. unfold tqw0. destruct (Z.ltb w 100); reflexivity.
Qed.

Example C71_example_program :
  let prog := [SForward 13; STrain false; SSession (CT 0 false true) [13; 14];
               STrain true; SWeight 1001; SAct 5; STrain false;
               SSession (CT 1 true true) [13; 14; 15]; SForward 9] in
  well_formed true [] prog /\
  option_map snd (run0 0 prog (md_new 57 3 true)) =
    Some [(12, 56, true); (12, 56, true); (12, 56, false);
          (10, 1000, true); (10, 1000, false); (15, 1000, false); (5, 1000, true)].
Proof.
  split; [|vm_compute; reflexivity]. cbn. repeat split; try discriminate; try tauto.
  intros [E|[]]. discriminate.
Qed.

Example C49_example_history :
  let h := [WTrain false; WFlag true; WForward; WParam 1001; WForward] in
  wp_cache (wp_run tqw0 q4 idz h (wp_new 57)) = Some (Some 56, 2) /\
  first_eval h [WTrain false; WFlag true].
Proof.
  split; [vm_compute; reflexivity|]. eexists. split; [reflexivity|].
  split; [repeat split|]. split.
  - cbn. intuition discriminate.
  - intros [|? [|? [|? ?]]] h4 E; cbn in E; try discriminate.
Qed.

(** ** Findings *)

(** Caching switched on by hand: the cache survives training and weight updates, and a handler
    prepared later (export, inference mode) computes with the old weight. *)
Theorem C49_cached_weight_is_stale_refuted :
  exists h s', let s := wp_run tqw0 q4 idz h (wp_new 57) in
    weight_of 57 h = 1001 /\
    wp_set_export tqw0 q4 idz true (wp_set_handler s) = Some s' /\
    snd (wp_forward tqw0 q4 idz 1001 s') = Some 56 /\ fst (tqw0 1001) = 1000.
Proof.
  exists [WTrain false; WFlag true; WForward; WTrain true; WParam 1001; WTrain false].
  eexists. split; [reflexivity|]. split; [vm_compute; reflexivity|]. split; vm_compute; reflexivity.
Qed.

(** The activation cache is never cleared: after an inference session the reported scale of an
    activation quantizer no longer follows its parameter. *)
Theorem C72_activation_scale_is_stale_refuted :
  exists s os, run0 0 [STrain false; SSession (CT 0 false true) [13]; SAct 5] (md_new 57 3 true)
                 = Some (s, os) /\
    ap_param (md_a s) = 5 /\ ap_flag (md_a s) = false /\
    snd (ap_metadata tqa0 idz q4 idz 0 (md_a s)) = Some 3.
Proof. eexists. eexists. split; [vm_compute; reflexivity|]. vm_compute. repeat split. Qed.

(** Leaving a session without [cache_quant_weight] leaves weight caching switched on. *)
Theorem C72_weight_caching_stays_on_refuted :
  exists s os, run0 0 [STrain false; SSession (CT 0 false true) [13]] (md_new 57 3 true)
                 = Some (s, os) /\
    wp_flag (md_w s) = true.
Proof. eexists. eexists. split; [vm_compute; reflexivity|]. vm_compute. repeat split. Qed.

(** A session in which no forward pass runs leaves its hook registered: the first later forward
    pass puts the model in export mode for good; weight updates are then ignored by the
    activation quantizers and layers stop returning quantized tensors. *)
Theorem C72_empty_session_refuted :
  exists s os, run0 0 [STrain false; SSession (CT 0 false true) []; SForward 13; SAct 5; SForward 13]
                  (md_new 57 3 true) = Some (s, os) /\
    os = [(12, 56, true); (12, 56, false)] /\ tqa0 5 13 = 10 /\
    wp_export (md_w s) = true /\ md_rqt s = false.
Proof. eexists. eexists. split; [vm_compute; reflexivity|]. vm_compute. repeat split. Qed.

(** ... and a training step right after it raises. *)
Theorem C72_training_after_empty_session_refuted :
  run0 0 [STrain false; SSession (CT 0 false true) []; STrain true; SForward 13] (md_new 57 3 true) = None.
Proof. reflexivity. Qed.

(** A disabled activation quantizer (with an activation function) cannot be run in inference mode:
    its handler is attached but never prepared, so the second forward pass fails, although the
    first one and ordinary evaluation succeed. *)
Theorem C72_disabled_activation_refuted :
  exists m, ap_enabled (md_a m) = false /\
    (exists r, md_session tqw0 q4 idz tqa0 idz q4 idz 0 (CT 0 false true) [13] m = Some r) /\
    (exists r, md_forwards tqw0 q4 idz tqa0 idz q4 idz 0 [13; 14] m = Some r) /\
    md_session tqw0 q4 idz tqa0 idz q4 idz 0 (CT 0 false true) [13; 14] m = None.
Proof.
  exists (md_train false (md_with_a (ap_set_enabled false) (md_new 57 3 true))).
  split; [reflexivity|]. split; [eexists; vm_compute; reflexivity|].
  split; [eexists; vm_compute; reflexivity|vm_compute; reflexivity].
Qed.
End Concrete.

(** A disabled weight quantizer, in contrast, passes its weight through in every mode. *)
Theorem C71_disabled_weight {W V M : Type} (tqw : W -> V * M) rqw (plainw : W -> V) s x :
  wp_enabled s = false -> wp_forward tqw rqw plainw x s = (s, Some (plainw x)).
Proof. intros E. unfold wp_forward. rewrite E. reflexivity. Qed.

Print Assumptions C49_forward_is_fresh.
Print Assumptions C49_cache_content.
Print Assumptions C71_inference_mode_is_faithful.
Print Assumptions C72_empty_session_refuted.
