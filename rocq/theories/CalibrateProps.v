(** C47 (calibration context), C48 (bias correction), C69 (norm correction), C70 (weight clipping). *)
From Verif Require Import Calibrate.
From Coq Require Import Reals List Bool ZArith Lia Lra.
Import ListNotations.

(** ** Loops over modules *)
Lemma for_each_nil f st : for_each [] f st = st.
Proof. reflexivity. Qed.
Lemma for_each_app l1 l2 f st : for_each (l1 ++ l2) f st = for_each l2 f (for_each l1 f st).
Proof. unfold for_each. apply fold_left_app. Qed.

(** An attribute projection [p] which every iteration either leaves or sets to [v]: afterwards it is
    [v] wherever some iteration sets it. *)
Lemma for_each_sets {T} (p : attrs -> T) (v : T) (hit : nat -> nat -> Prop) l f st i :
  (forall m s, In m l -> p (f m s i) = v \/ p (f m s i) = p (s i)) ->
  (forall m s, In m l -> hit m i -> p (f m s i) = v) ->
  (exists m, In m l /\ hit m i) -> p (for_each l f st i) = v.
Proof.
  intros H1 H2 (m & Hm & Hh). apply in_split in Hm. destruct Hm as (l1 & l2 & ->).
  rewrite for_each_app. unfold for_each at 1. cbn [fold_left].
  assert (G : forall l' s, (forall m', In m' l' -> In m' (l1 ++ m :: l2)) -> p (s i) = v -> p (fold_left (fun s m => f m s) l' s i) = v).
  { induction l' as [|m' l' IH]; intros s HI Hs; [exact Hs|]. cbn [fold_left]. apply IH; [intros m'' K; apply HI; right; exact K|].
    destruct (H1 m' s) as [E|E]; [apply HI; left; reflexivity|exact E|rewrite E; exact Hs]. }
  apply G; [intros m' K; apply in_or_app; right; right; exact K|]. apply H2; [apply in_or_app; right; left; reflexivity|exact Hh].
Qed.
Lemma for_each_keeps {T} (p : attrs -> T) l f st i : (forall m s, In m l -> p (f m s i) = p (s i)) -> p (for_each l f st i) = p (st i).
Proof.
  revert st. unfold for_each. induction l as [|m l IH]; intros st H; [reflexivity|]. cbn [fold_left].
  rewrite IH by (intros; apply H; right; assumption). apply H. left. reflexivity.
Qed.
Lemma upd_same st m f : upd st m f m = f (st m).
Proof. unfold upd. rewrite Nat.eqb_refl. reflexivity. Qed.
Lemma upd_other st m f i : i <> m -> upd st m f i = st i.
Proof. intros H. unfold upd. destruct (Nat.eqb_spec i m); [contradiction|reflexivity]. Qed.

Section Model.
  Variable kind_of : nat -> kind.
  Variable mods : list nat.
  Variable subs : nat -> list nat.
  Variable root : nat.
  Hypothesis Hself : forall m, In m (subs m).
  Hypothesis Hsub : forall m i, In m mods -> In i (subs m) -> In i mods.

  Notation train := (train subs).
  Notation observe := (observe subs).

  Lemma train_training m b s i : In i (subs m) -> training (train m b s i) = b.
  Proof.
    intros H. unfold Calibrate.train. apply (for_each_sets training b (fun m' i' => m' = i')).
    - intros m' s' _. destruct (Nat.eq_dec i m') as [->|N]; [left; rewrite upd_same; reflexivity|right; rewrite upd_other by exact N; reflexivity].
    - intros m' s' _ ->. rewrite upd_same. reflexivity.
    - exists i. auto.
  Qed.
  Lemma train_training_either m b s i : training (train m b s i) = b \/ training (train m b s i) = training (s i).
  Proof.
    destruct (in_dec Nat.eq_dec i (subs m)) as [H|H]; [left; apply train_training; exact H|right].
    unfold Calibrate.train. apply for_each_keeps. intros m' s' Hm. rewrite upd_other; [reflexivity|]. intros ->. contradiction.
  Qed.
  Lemma train_keeps {T} (p : attrs -> T) m b s i : (forall a, p (set_training b a) = p a) -> p (train m b s i) = p (s i).
  Proof.
    intros H. unfold Calibrate.train. apply for_each_keeps. intros m' s' _. unfold upd. destruct (Nat.eqb i m'); [apply H|reflexivity].
  Qed.
  Lemma observe_keeps {T} (p : attrs -> T) m b s i : (forall a, p (set_observer b a) = p a) -> p (observe m b s i) = p (s i).
  Proof.
    intros H. unfold Calibrate.observe. apply for_each_keeps. intros m' s' _. unfold upd. destruct (Nat.eqb i m'); [apply H|reflexivity].
  Qed.
  Definition obs_ok (b : bool) (o : option bool) : bool := match o with Some x => Bool.eqb x b | None => true end.
  Lemma observe_sets m b s i : In i (subs m) -> obs_ok b (observer_only (observe m b s i)) = true.
  Proof.
    intros H. unfold Calibrate.observe. apply (for_each_sets (fun a => obs_ok b (observer_only a)) true (fun m' i' => m' = i')).
    - intros m' s' _. destruct (Nat.eq_dec i m') as [->|N]; [left; rewrite upd_same|right; rewrite upd_other by exact N; reflexivity].
      cbn. destruct (observer_only (s' m')); [cbn; apply eqb_reflx|reflexivity].
    - intros m' s' _ ->. rewrite upd_same. cbn. destruct (observer_only (s' i)); [cbn; apply eqb_reflx|reflexivity].
    - exists i. auto.
  Qed.
  Lemma observe_either m b s i : obs_ok b (observer_only (observe m b s i)) = true \/ obs_ok b (observer_only (observe m b s i)) = obs_ok b (observer_only (s i)).
  Proof.
    destruct (in_dec Nat.eq_dec i (subs m)) as [H|H]; [left; apply observe_sets; exact H|right].
    unfold Calibrate.observe. apply (for_each_keeps (fun a => obs_ok b (observer_only a))). intros m' s' Hm. rewrite upd_other; [reflexivity|]. intros ->. contradiction.
  Qed.

  Definition is_proxy (m : nat) : Prop := kind_of m <> KOther.

  (** Enabling, as a whole. *)
  Lemma enable_disable_flag b st m : In m mods -> is_proxy m -> disable_quant (apply_quant kind_of mods subs true b true st m) = false.
  Proof.
    intros Hm Hp. unfold apply_quant.
    assert (KA : forall s, (kind_of m = KAct \/ kind_of m = KAcc) -> disable_quant (enable_act kind_of subs mods b s m) = false).
    { intros s K. unfold enable_act. apply (for_each_sets disable_quant false (fun m' i' => m' = i')); [| |exists m; auto].
      - intros m' s' _. destruct (kind_of m') eqn:K'; try (right; reflexivity).
        + rewrite observe_keeps, train_keeps by reflexivity. destruct (Nat.eq_dec m m') as [->|N]; [left; rewrite upd_same; reflexivity|right; rewrite upd_other by exact N; reflexivity].
        + destruct (Nat.eq_dec m m') as [->|N]; [left; rewrite upd_same; reflexivity|right; rewrite upd_other by exact N; apply train_keeps; reflexivity].
      - intros m' s' _ ->. destruct K as [K|K]; rewrite K; rewrite ?observe_keeps, ?train_keeps by reflexivity; rewrite upd_same; reflexivity. }
    assert (KP : forall s, (kind_of m = KAct \/ kind_of m = KAcc) -> disable_quant (enable_param kind_of subs mods b s m) = disable_quant (s m)).
    { intros s K. unfold enable_param. apply for_each_keeps. intros m' s' _. destruct (kind_of m') eqn:K'; try reflexivity;
      (rewrite train_keeps by reflexivity; unfold upd; destruct (Nat.eqb_spec m m') as [->|N]; [destruct K; congruence|reflexivity]). }
    assert (KW : forall s, (kind_of m = KWeight \/ kind_of m = KBias) -> disable_quant (enable_param kind_of subs mods b s m) = false).
    { intros s K. unfold enable_param. apply (for_each_sets disable_quant false (fun m' i' => m' = i')); [| |exists m; auto].
      - intros m' s' _. destruct (kind_of m') eqn:K'; try (right; reflexivity);
        (rewrite train_keeps by reflexivity; destruct (Nat.eq_dec m m') as [->|N]; [left; rewrite upd_same; reflexivity|right; rewrite upd_other by exact N; reflexivity]).
      - intros m' s' _ ->. destruct K as [K|K]; rewrite K; rewrite train_keeps by reflexivity; rewrite upd_same; reflexivity. }
    destruct (kind_of m) eqn:K.
    - rewrite KP by auto. apply KA. auto.
    - rewrite KP by auto. apply KA. auto.
    - apply KW. auto.
    - apply KW. auto.
    - exfalso. apply Hp. exact K.
  Qed.

  Lemma enable_training b st m i : In m mods -> is_proxy m -> In i (subs m) -> training (apply_quant kind_of mods subs true b true st i) = b.
  Proof.
    intros Hm Hp Hi. unfold apply_quant.
    assert (KA : forall s, (kind_of m = KAct \/ kind_of m = KAcc) -> training (enable_act kind_of subs mods b s i) = b).
    { intros s K. unfold enable_act. apply (for_each_sets training b (fun m' i' => m' = m)); [| |exists m; auto].
      - intros m' s' _. destruct (kind_of m') eqn:K'; try (right; reflexivity).
        + rewrite observe_keeps by reflexivity. destruct (train_training_either m' b (upd s' m' (set_disable false)) i) as [E|E]; [left; exact E|right; rewrite E].
          unfold upd. destruct (Nat.eqb i m'); reflexivity.
        + unfold upd. destruct (Nat.eqb i m'); cbn; apply train_training_either.
      - intros m' s' _ ->. destruct K as [K|K]; rewrite K.
        + rewrite observe_keeps by reflexivity. apply train_training. exact Hi.
        + unfold upd. destruct (Nat.eqb i m); cbn; apply train_training; exact Hi. }
    assert (KP : forall m' s', training (match kind_of m' with KWeight | KBias => train m' b (upd s' m' (set_disable false)) | _ => s' end i) = b
        \/ training (match kind_of m' with KWeight | KBias => train m' b (upd s' m' (set_disable false)) | _ => s' end i) = training (s' i)).
    { intros m' s'. destruct (kind_of m'); try (right; reflexivity).
      all: destruct (train_training_either m' b (upd s' m' (set_disable false)) i) as [E|E]; [left; exact E|right; rewrite E]; unfold upd; destruct (Nat.eqb i m'); reflexivity. }
    destruct (kind_of m) eqn:K; [| | | |exfalso; apply Hp; exact K].
    1, 2: unfold enable_param; specialize (KA st); 
      assert (G : forall l s, training (s i) = b -> training (for_each l (fun m' s' => match kind_of m' with KWeight | KBias => train m' b (upd s' m' (set_disable false)) | _ => s' end) s i) = b) by
       (unfold for_each; induction l as [|m' l IH]; intros s Hs; [exact Hs|]; cbn [fold_left]; apply IH; destruct (KP m' s) as [E|E]; [exact E|rewrite E; exact Hs]);
      apply G; apply KA; rewrite ?K; auto.
    1, 2: unfold enable_param; apply (for_each_sets training b (fun m' i' => m' = m)); [intros m' s' _; apply KP| |exists m; auto];
      intros m' s' _ ->; rewrite K; apply train_training; exact Hi.
  Qed.

  Lemma enable_observer b st m i : In m mods -> kind_of m = KAct -> In i (subs m) -> obs_ok false (observer_only (apply_quant kind_of mods subs true b true st i)) = true.
  Proof.
    intros Hm K Hi. unfold apply_quant, enable_param. rewrite (for_each_keeps (fun a => obs_ok false (observer_only a))).
    2:{ intros m' s' _. destruct (kind_of m'); try reflexivity;
      (rewrite (train_keeps (fun a => obs_ok false (observer_only a))) by reflexivity; unfold upd; destruct (Nat.eqb i m'); reflexivity). }
    unfold enable_act. apply (for_each_sets (fun a => obs_ok false (observer_only a)) true (fun m' i' => m' = m)); [| |exists m; auto].
    - intros m' s' _. destruct (kind_of m'); try (right; reflexivity).
      + destruct (observe_either m' false (train m' b (upd s' m' (set_disable false))) i) as [E|E]; [left; exact E|right; rewrite E].
        rewrite (train_keeps (fun a => obs_ok false (observer_only a))) by reflexivity. unfold upd. destruct (Nat.eqb i m'); reflexivity.
      + right. unfold upd. destruct (Nat.eqb i m'); cbn; rewrite (train_keeps (fun a => obs_ok false (observer_only a))) by reflexivity; reflexivity.
    - intros m' s' _ ->. rewrite K. apply observe_sets. exact Hi.
  Qed.

  (** Attributes that enabling/disabling never touches. *)
  Lemma apply_quant_keeps {T} (p : attrs -> T) c b e st i :
    (forall x a, p (set_training x a) = p a) -> (forall x a, p (set_disable x a) = p a) -> (forall x a, p (set_observer x a) = p a) ->
    p (apply_quant kind_of mods subs c b e st i) = p (st i).
  Proof.
    intros H1 H2 H3. unfold apply_quant. destruct e.
    - unfold enable_param, enable_act. rewrite (for_each_keeps p), (for_each_keeps p); [reflexivity| |];
      intros m' s' _; destruct (kind_of m'); try reflexivity; rewrite ?observe_keeps, ?train_keeps by auto;
      unfold upd; destruct (Nat.eqb i m'); rewrite ?H2, ?train_keeps by auto; reflexivity.
    - unfold disable_param, disable_act. rewrite (for_each_keeps p), (for_each_keeps p); [reflexivity| |];
      intros m' s' _; destruct (kind_of m'); try reflexivity; [destruct c| | |]; rewrite ?observe_keeps, ?train_keeps by auto; try reflexivity;
      unfold upd; destruct (Nat.eqb i m'); rewrite ?H2, ?train_keeps by auto; reflexivity.
  Qed.

  Lemma restore_keeps {T} (p : attrs -> T) sv st i : (forall x a, p (set_rqt x a) = p a) -> p (restore_rqt mods sv st i) = p (st i).
  Proof.
    intros H. unfold restore_rqt. apply for_each_keeps. intros m' s' _. destruct (lookup sv m'); [|reflexivity]. unfold upd. destruct (Nat.eqb i m'); [apply H|reflexivity].
  Qed.

  (** *** Quantizers are all enabled, observers off, training flags those of the model at
      construction, for every body. *)
  Theorem C47_enabled_after : forall enabled body st m, In m mods -> is_proxy m ->
    disable_quant (with_calibration kind_of mods subs root enabled body st m) = false.
  Proof.
    intros enabled body st m Hm Hp. unfold with_calibration. destruct (calib_enter kind_of mods subs enabled st) as [sv st1]. unfold calib_exit.
    rewrite restore_keeps by reflexivity. apply enable_disable_flag; assumption.
  Qed.
  Theorem C47_training_after : forall enabled body st m i, In m mods -> is_proxy m -> In i (subs m) ->
    training (with_calibration kind_of mods subs root enabled body st i) = training (st root).
  Proof.
    intros enabled body st m i Hm Hp Hi. unfold with_calibration. destruct (calib_enter kind_of mods subs enabled st) as [sv st1]. unfold calib_exit.
    rewrite restore_keeps by reflexivity. apply (enable_training _ _ m); assumption.
  Qed.
  Theorem C47_observer_after : forall enabled body st m i, In m mods -> kind_of m = KAct -> In i (subs m) ->
    observer_only (with_calibration kind_of mods subs root enabled body st i) <> Some true.
  Proof.
    intros enabled body st m i Hm K Hi E. unfold with_calibration in E. destruct (calib_enter kind_of mods subs enabled st) as [sv st1]. unfold calib_exit in E.
    rewrite restore_keeps in E by reflexivity. pose proof (enable_observer (training (st root)) (finalize mods (body st1)) m i Hm K Hi) as O. rewrite E in O. discriminate.
  Qed.

  (** No further collection: the counter has reached the number of steps, whatever happened. *)
  Definition fin_ok (a : attrs) : Prop := match steps a, counter a with Some n, Some c => (n <= c)%Z | _, _ => True end.
  Theorem C47_no_more_stats : forall enabled body st i, In i mods -> fin_ok (with_calibration kind_of mods subs root enabled body st i).
  Proof.
    intros enabled body st i Hi. unfold with_calibration. destruct (calib_enter kind_of mods subs enabled st) as [sv st1]. unfold calib_exit, fin_ok.
    rewrite !(restore_keeps steps), !(restore_keeps counter) by reflexivity. rewrite !(apply_quant_keeps steps), !(apply_quant_keeps counter) by reflexivity.
    set (st2 := body st1). clearbody st2.
    assert (F : forall a, (match steps a, counter a with Some n, Some c => Z.leb n c | _, _ => true end) = true -> match steps a, counter a with Some n, Some c => (n <= c)%Z | _, _ => True end).
    { intros a. destruct (steps a), (counter a); intros H; try exact Logic.I. apply Z.leb_le. exact H. }
    apply F. unfold finalize. apply (for_each_sets (fun a => match steps a, counter a with Some n, Some c => Z.leb n c | _, _ => true end) true (fun m' i' => m' = i')).
    - intros m' s' _. destruct (Nat.eq_dec i m') as [->|N]; [left; rewrite upd_same|right; rewrite upd_other by exact N; reflexivity].
      destruct (steps (s' m')) eqn:S, (counter (s' m')) eqn:C; cbn; rewrite ?S, ?C; try reflexivity. apply Z.leb_le. lia.
    - intros m' s' _ ->. rewrite upd_same. destruct (steps (s' i)) eqn:S, (counter (s' i)) eqn:C; cbn; rewrite ?S, ?C; try reflexivity. apply Z.leb_le. lia.
    - exists i. auto.
  Qed.

  (** The return_quant_tensor flags are those before entering, whatever the body does to them. *)
  Lemma lookup_in st m : In m mods -> lookup (fst (disable_rqt mods st)) m = return_quant_tensor (st m).
  Proof.
    unfold disable_rqt, lookup. cbn [fst]. assert (G : forall l, In m l ->
      match find (fun p => Nat.eqb (fst p) m) (flat_map (fun m => match return_quant_tensor (st m) with Some b => [(m, b)] | None => [] end) l) with Some p => Some (snd p) | None => None end = return_quant_tensor (st m)).
    { induction l as [|a l IH]; intros H; [destruct H|]. cbn [flat_map]. destruct (Nat.eq_dec a m) as [->|N].
      - destruct (return_quant_tensor (st m)) as [b|] eqn:E; [cbn; rewrite Nat.eqb_refl; reflexivity|]. cbn [app].
        destruct (in_dec Nat.eq_dec m l) as [I|I]; [apply IH; exact I|].
        destruct (find _ _) as [p|] eqn:F; [|reflexivity]. exfalso. apply find_some in F. destruct F as [F1 F2]. apply Nat.eqb_eq in F2.
        apply in_flat_map in F1. destruct F1 as (x & Hx & Hp). destruct (return_quant_tensor (st x)); [destruct Hp as [<-|[]]; cbn in F2; subst x; contradiction|destruct Hp].
      - destruct H as [H|H]; [contradiction|]. destruct (return_quant_tensor (st a)); cbn; [destruct (Nat.eqb_spec a m); [contradiction|]|]; apply IH; exact H. }
    apply G.
  Qed.
  Theorem C47_return_quant_tensor : forall body st m b, In m mods -> return_quant_tensor (st m) = Some b ->
    (forall s i, return_quant_tensor (s i) <> None -> return_quant_tensor (body s i) <> None) ->
    return_quant_tensor (with_calibration kind_of mods subs root true body st m) = Some b.
  Proof.
    intros body st m b Hm Hb HB. unfold with_calibration, calib_enter.
    set (st0 := to_average mods (extend_steps mods st)).
    assert (K0 : forall i, return_quant_tensor (st0 i) = return_quant_tensor (st i)).
    { intros i. unfold st0, to_average, extend_steps. rewrite (for_each_keeps return_quant_tensor), (for_each_keeps return_quant_tensor); [reflexivity| |];
      intros m' s' _; unfold upd; destruct (Nat.eqb i m'); try reflexivity. destruct (steps (s' i)), (momentum (s' i)); reflexivity. }
    destruct (disable_rqt mods st0) as [sv st1] eqn:D.
    assert (L : lookup sv m = Some b) by (replace sv with (fst (disable_rqt mods st0)) by (rewrite D; reflexivity); rewrite lookup_in by exact Hm; rewrite K0; exact Hb).
    set (st2 := apply_quant kind_of mods subs true true false st1).
    assert (N2 : return_quant_tensor (st2 m) <> None).
    { unfold st2. rewrite (apply_quant_keeps return_quant_tensor) by reflexivity. replace st1 with (snd (disable_rqt mods st0)) by (rewrite D; reflexivity). unfold disable_rqt. cbn [snd].
      assert (G : (match return_quant_tensor (for_each mods (fun m0 s => upd s m0 (set_rqt false)) st0 m) with Some _ => true | None => false end) = match return_quant_tensor (st0 m) with Some _ => true | None => false end).
      { apply (for_each_keeps (fun a => match return_quant_tensor a with Some _ => true | None => false end)). intros m' s' _. unfold upd. destruct (Nat.eqb m m'); [|reflexivity]. cbn. destruct (return_quant_tensor (s' m)); reflexivity. }
      rewrite K0, Hb in G. intros E. rewrite E in G. discriminate. }
    specialize (HB st2 m N2). set (st3 := body st2) in *. clearbody st3.
    unfold calib_exit. set (st4 := apply_quant kind_of mods subs true (training (st root)) true (finalize mods st3)).
    assert (N4 : return_quant_tensor (st4 m) <> None).
    { unfold st4. rewrite (apply_quant_keeps return_quant_tensor) by reflexivity. unfold finalize. rewrite (for_each_keeps return_quant_tensor); [exact HB|].
      intros m' s' _. unfold upd. destruct (Nat.eqb m m'); [|reflexivity]. destruct (steps (s' m)), (counter (s' m)); reflexivity. }
    clearbody st4. unfold restore_rqt.
    assert (G : forall l s, In m l \/ return_quant_tensor (s m) = Some b -> return_quant_tensor (s m) <> None ->
       return_quant_tensor (for_each l (fun m0 s0 => match lookup sv m0 with Some b0 => upd s0 m0 (set_rqt b0) | None => s0 end) s m) = Some b).
    { unfold for_each. induction l as [|a l IH]; intros s HI HN; [destruct HI as [[]|HI]; exact HI|]. cbn [fold_left]. destruct (Nat.eq_dec a m) as [->|Ne].
      - rewrite L. apply IH.
        + right. rewrite upd_same. cbn. destruct (return_quant_tensor (s m)); [reflexivity|contradiction].
        + rewrite upd_same. cbn. destruct (return_quant_tensor (s m)); [discriminate|contradiction].
      - assert (E : (match lookup sv a with Some b0 => upd s a (set_rqt b0) | None => s end) m = s m) by (destruct (lookup sv a); [apply upd_other; congruence|reflexivity]).
        apply IH; rewrite E; [destruct HI as [[HI|HI]|HI]; [contradiction|left; exact HI|right; exact HI]|exact HN]. }
    apply G; [left; exact Hm|exact N4].
  Qed.

  (** Inside the context: weight and bias quantizers are off, activation quantizers observe in
      training mode and no quantized tensors are returned. *)
  Theorem C47_inside : forall st m i, In m mods -> 
    (kind_of m = KWeight \/ kind_of m = KBias -> disable_quant (snd (calib_enter kind_of mods subs true st) m) = true) /\
    (kind_of m = KAct -> In i (subs m) -> obs_ok true (observer_only (snd (calib_enter kind_of mods subs true st) i)) = true /\ training (snd (calib_enter kind_of mods subs true st) i) = true) /\
    return_quant_tensor (snd (calib_enter kind_of mods subs true st) m) <> Some true.
  Proof.
    intros st m i Hm. unfold calib_enter. set (st0 := to_average mods (extend_steps mods st)). clearbody st0.
    destruct (disable_rqt mods st0) as [sv st1] eqn:D. cbn [snd]. split; [|split].
    - intros K. unfold apply_quant, disable_param. apply (for_each_sets disable_quant true (fun m' i' => m' = i')); [| |exists m; auto].
      + intros m' s' _. destruct (kind_of m'); try (right; reflexivity);
        (destruct (Nat.eq_dec m m') as [->|N]; [left; rewrite upd_same; reflexivity|right; rewrite upd_other by exact N; apply train_keeps; reflexivity]).
      + intros m' s' _ ->. destruct K as [K|K]; rewrite K, upd_same; reflexivity.
    - intros K Hi. split.
      + unfold apply_quant, disable_param. rewrite (for_each_keeps (fun a => obs_ok true (observer_only a))).
        2:{ intros m' s' _. destruct (kind_of m'); try reflexivity; (unfold upd; destruct (Nat.eqb i m'); cbn; rewrite (train_keeps (fun a => obs_ok true (observer_only a))) by reflexivity; reflexivity). }
        unfold disable_act. apply (for_each_sets (fun a => obs_ok true (observer_only a)) true (fun m' i' => m' = m)); [| |exists m; auto].
        * intros m' s' _. destruct (kind_of m'); try (right; reflexivity).
          -- destruct (observe_either m' true (train m' true s') i) as [E|E]; [left; exact E|right; rewrite E]. rewrite (train_keeps (fun a => obs_ok true (observer_only a))) by reflexivity. reflexivity.
          -- right. unfold upd. destruct (Nat.eqb i m'); cbn; rewrite (train_keeps (fun a => obs_ok true (observer_only a))) by reflexivity; reflexivity.
        * intros m' s' _ ->. rewrite K. apply observe_sets. exact Hi.
      + unfold apply_quant, disable_param.
        assert (G : forall l s, training (s i) = true -> training (for_each l (fun m' s' => match kind_of m' with KWeight | KBias => upd (train m' true s') m' (set_disable true) | _ => s' end) s i) = true).
        { unfold for_each. induction l as [|m' l IH]; intros s Hs; [exact Hs|]. cbn [fold_left]. apply IH. destruct (kind_of m'); try exact Hs;
          (unfold upd; destruct (Nat.eqb i m'); cbn; destruct (train_training_either m' true s i) as [E|E]; rewrite E; auto). }
        apply G. unfold disable_act. apply (for_each_sets training true (fun m' i' => m' = m)); [| |exists m; auto].
        * intros m' s' _. destruct (kind_of m'); try (right; reflexivity).
          -- rewrite observe_keeps by reflexivity. apply train_training_either.
          -- unfold upd. destruct (Nat.eqb i m'); cbn; apply train_training_either.
        * intros m' s' _ ->. rewrite K, observe_keeps by reflexivity. apply train_training. exact Hi.
    - rewrite (apply_quant_keeps return_quant_tensor) by reflexivity. replace st1 with (snd (disable_rqt mods st0)) by (rewrite D; reflexivity). unfold disable_rqt. cbn [snd].
      assert (G : (match return_quant_tensor (for_each mods (fun m0 s => upd s m0 (set_rqt false)) st0 m) with Some b => negb b | None => true end) = true).
      { apply (for_each_sets (fun a => match return_quant_tensor a with Some b => negb b | None => true end) true (fun m' i' => m' = i')); [| |exists m; auto].
        - intros m' s' _. unfold upd. destruct (Nat.eqb m m'); [left|right; reflexivity]. cbn. destruct (return_quant_tensor (s' m)); reflexivity.
        - intros m' s' _ ->. rewrite upd_same. cbn. destruct (return_quant_tensor (s' m)); reflexivity. }
      intros E. rewrite E in G. discriminate.
  Qed.

  (** Truncation quantizers are off as well, and no module starts another collection: the number of
      collection steps is the largest integer and every momentum is None (cumulative average). *)
  Theorem C47_inside_truncation : forall st m, In m mods -> kind_of m = KAcc ->
    disable_quant (snd (calib_enter kind_of mods subs true st) m) = true.
  Proof.
    intros st m Hm K. unfold calib_enter. set (st0 := to_average mods (extend_steps mods st)). clearbody st0.
    destruct (disable_rqt mods st0) as [sv st1]. cbn [snd]. unfold apply_quant, disable_param.
    assert (G : forall l s, disable_quant (s m) = true -> disable_quant (for_each l (fun m' s' => match kind_of m' with KWeight | KBias => upd (train m' true s') m' (set_disable true) | _ => s' end) s m) = true).
    { unfold for_each. induction l as [|m' l IH]; intros s Hs; [exact Hs|]. cbn [fold_left]. apply IH. destruct (kind_of m'); try exact Hs;
      (unfold upd; destruct (Nat.eqb m m'); cbn; [reflexivity|]; rewrite train_keeps by reflexivity; exact Hs). }
    apply G. unfold disable_act. apply (for_each_sets disable_quant true (fun m' i' => m' = i')); [| |exists m; auto].
    - intros m' s' _. destruct (kind_of m'); try (right; reflexivity).
      + right. rewrite observe_keeps, train_keeps by reflexivity. reflexivity.
      + unfold upd. destruct (Nat.eqb m m'); cbn; [left; reflexivity|right; apply train_keeps; reflexivity].
    - intros m' s' _ ->. rewrite K, upd_same. reflexivity.
  Qed.
  Theorem C47_inside_averages : forall st m n v, In m mods -> steps (st m) = Some n -> momentum (st m) = Some v ->
    steps (snd (calib_enter kind_of mods subs true st) m) = Some maxsize
    /\ momentum (snd (calib_enter kind_of mods subs true st) m) = Some None.
  Proof.
    intros st m n v Hm HS HM. unfold calib_enter.
    assert (E1 : steps (extend_steps mods st m) = Some maxsize).
    { unfold extend_steps.
      assert (G : forall l s, steps (s m) <> None -> (In m l \/ steps (s m) = Some maxsize) ->
         steps (for_each l (fun m s => upd s m (set_steps maxsize)) s m) = Some maxsize).
      { unfold for_each. induction l as [|m' l IH]; intros s Hs Hl; cbn [fold_left]; [destruct Hl as [[]|Hl]; exact Hl|].
        assert (E : steps (upd s m' (set_steps maxsize) m) = if Nat.eqb m m' then Some maxsize else steps (s m)).
        { unfold upd. destruct (Nat.eqb m m'); [|reflexivity]. cbn. destruct (steps (s m)); [reflexivity|congruence]. }
        apply IH; rewrite E.
        - destruct (Nat.eqb m m'); [discriminate|exact Hs].
        - destruct (Nat.eqb_spec m m') as [->|N]; [right; reflexivity|].
          destruct Hl as [[Hl|Hl]|Hl]; [congruence|left; exact Hl|right; exact Hl]. }
      apply G; [rewrite HS; discriminate|left; exact Hm]. }
    assert (M1 : momentum (extend_steps mods st m) = Some v).
    { unfold extend_steps. rewrite (for_each_keeps momentum); [exact HM|]. intros m' s' _. unfold upd. destruct (Nat.eqb m m'); reflexivity. }
    set (st1 := extend_steps mods st) in *. clearbody st1.
    assert (E2 : steps (to_average mods st1 m) = Some maxsize).
    { unfold to_average. rewrite (for_each_keeps steps); [exact E1|]. intros m' s' _. unfold upd. destruct (Nat.eqb m m'); [|reflexivity].
      destruct (steps (s' m)) eqn:Q, (momentum (s' m)); cbn; congruence. }
    assert (M2 : momentum (to_average mods st1 m) = Some None).
    { unfold to_average.
      assert (G : forall l s, steps (s m) <> None -> momentum (s m) <> None -> (In m l \/ momentum (s m) = Some None) ->
         momentum (for_each l (fun m s => upd s m (fun a => match steps a, momentum a with Some _, Some _ => set_momentum (Some None) a | _, _ => a end)) s m) = Some None).
      { unfold for_each. induction l as [|m' l IH]; intros s Hs Hq Hl; cbn [fold_left]; [destruct Hl as [[]|Hl]; exact Hl|].
        set (s1 := upd s m' _).
        assert (E : steps (s1 m) = steps (s m) /\ momentum (s1 m) = if Nat.eqb m m' then Some None else momentum (s m)).
        { unfold s1, upd. destruct (Nat.eqb m m'); [|auto]. destruct (steps (s m)) eqn:Q1, (momentum (s m)) eqn:Q2; try congruence. cbn. auto. }
        destruct E as [Ea Eb]. apply IH; rewrite ?Ea, ?Eb; [exact Hs| |].
        - destruct (Nat.eqb m m'); [discriminate|exact Hq].
        - destruct (Nat.eqb_spec m m') as [->|N]; [right; reflexivity|].
          destruct Hl as [[Hl|Hl]|Hl]; [congruence|left; exact Hl|right; exact Hl]. }
      apply G; [rewrite E1; discriminate|rewrite M1; discriminate|left; exact Hm]. }
    set (st2 := to_average mods st1) in *. clearbody st2.
    destruct (disable_rqt mods st2) as [sv st3] eqn:D. cbn [snd].
    rewrite (apply_quant_keeps steps), (apply_quant_keeps momentum) by reflexivity.
    replace st3 with (snd (disable_rqt mods st2)) by (rewrite D; reflexivity). unfold disable_rqt. cbn [snd].
    rewrite (for_each_keeps steps), (for_each_keeps momentum); [auto| |]; intros m' s' _; unfold upd; destruct (Nat.eqb m m'); reflexivity.
  Qed.
End Model.

(** *** Not restored: a quantizer the user had switched off comes back on. *)
Definition one_proxy : state := fun _ => A false true (Some false) None (Some 300%Z) (Some 0%Z) None.
Theorem C47_disabled_refuted : exists st, disable_quant (st 0%nat) = true /\
  disable_quant (with_calibration (fun _ => KAct) [0%nat] (fun m => [m]) 0 true (fun s => s) st 0%nat) = false.
Proof. exists one_proxy. split; reflexivity. Qed.
(** [enabled=False] is not a no-op: the collection of statistics ends and quantizers are enabled. *)
Theorem C47_not_enabled_refuted : exists st, counter (st 0%nat) = Some 0%Z /\ steps (st 0%nat) = Some 300%Z /\
  counter (with_calibration (fun _ => KAct) [0%nat] (fun m => [m]) 0 false (fun s => s) st 0%nat) = Some 300%Z.
Proof. exists one_proxy. repeat split. Qed.
(** The number of collection steps and the momentum stay changed. *)
Theorem C47_steps_refuted : exists st, steps (st 0%nat) = Some 300%Z /\
  steps (with_calibration (fun _ => KAct) [0%nat] (fun m => [m]) 0 true (fun s => s) st 0%nat) = Some maxsize.
Proof. exists one_proxy. split; reflexivity. Qed.

Example C47_example : let st := with_calibration (fun m => match m with 1 => KAct | 2 => KWeight | _ => KOther end%nat) [0; 1; 2]%nat (fun m => if Nat.eqb m 0 then [0; 1; 2]%nat else [m]) 0 true (fun s => s)
     (fun m => A true false (Some false) (Some true) (Some 30%Z) (Some 5%Z) None) in
  disable_quant (st 2%nat) = false /\ training (st 1%nat) = true /\ return_quant_tensor (st 0%nat) = Some true.
Proof. repeat split. Qed.

(** ** C48 *)
Open Scope R_scope.
Lemma Rsum_map_plus l c : Rsum (map (fun v => v + c) l) = Rsum l + INR (length l) * c.
Proof. induction l as [|a l IH]; cbn [map Rsum fold_right length]; [cbn; ring|]. change (fold_right Rplus 0 (map (fun v => v + c) l)) with (Rsum (map (fun v => v + c) l)). rewrite IH, S_INR. unfold Rsum. ring. Qed.
Lemma mean_shift l c : l <> [] -> mean (map (fun v => v + c) l) = mean l + c.
Proof.
  intros H. unfold mean. rewrite Rsum_map_plus, map_length. assert (INR (length l) <> 0) by (apply not_0_INR; destruct l; [contradiction|cbn; lia]). field. assumption.
Qed.

Lemma run_hooks_eq : forall l c0 n0, exists s, run_hooks l (BC None c0 n0) = Some s /\ float_mean s = None /\ iterations s = (n0 + length l)%nat
  /\ (match correction s with Some c => c | None => 0 end) = (match c0 with Some c => c | None => 0 end) + Rsum (map (fun p => mean (fst p) - mean (snd p)) l)
  /\ (correction s = None -> l = [] /\ c0 = None).
Proof.
  induction l as [|[f q] l IH]; intros c0 n0.
  - eexists. split; [reflexivity|]. cbn. repeat split; auto; try lia. ring.
  - cbn [run_hooks]. unfold hook, collect_float_mean, compute_correct_bias. cbn [float_mean correction iterations].
    destruct (IH (Some (match c0 with None => mean f - mean q | Some c => c + (mean f - mean q) end)) (S n0)) as (s & E & F & I & C & N).
    exists s. split; [exact E|]. split; [exact F|]. split; [rewrite I; cbn; lia|]. split.
    + rewrite C. cbn [map fst snd Rsum fold_right]. unfold Rsum. destruct c0; ring.
    + intros K. destruct (N K) as [_ K']. discriminate.
Qed.

(** Mean of the per-batch means. *)
Definition batch_mean (l : list (list R)) : R := Rsum (map mean l) / INR (length l).
Lemma Rsum_minus {X} (f g : X -> R) l : Rsum (map (fun x => f x - g x) l) = Rsum (map f l) - Rsum (map g l).
Proof. induction l as [|a l IH]; cbn; [ring|]. unfold Rsum in IH. rewrite IH. ring. Qed.
Lemma Rsum_ext {X} (f g : X -> R) l : (forall x, In x l -> f x = g x) -> Rsum (map f l) = Rsum (map g l).
Proof. intros H. f_equal. apply map_ext_in. exact H. Qed.

(** A layer whose output is its bias-free output plus the bias: after correction the average over
    the calibration inputs of the quantized output mean is that of the float output. *)
Section Layer.
  Context {X : Type}.
  Variables (float_out quant_nobias : X -> list R).
  Definition with_bias (b : R) (l : list R) : list R := map (fun v => v + b) l.
  Definition opt0 (b : option R) : R := match b with Some v => v | None => 0 end.

  Lemma correction_value xs b skip qb : xs <> [] -> (forall x, In x xs -> quant_nobias x <> []) ->
    exists s, run_hooks (map (fun x => (float_out x, with_bias qb (quant_nobias x))) xs) bc0 = Some s /\
    (b <> None \/ skip = false -> exists b', apply_correction skip b s = Some b' /\
       b' = opt0 b + (batch_mean (map float_out xs) - batch_mean (map quant_nobias xs) - qb)).
  Proof.
    intros Hx Hq. destruct (run_hooks_eq (map (fun x => (float_out x, with_bias qb (quant_nobias x))) xs) None 0%nat) as (s & E & F & I & C & N).
    exists s. split; [exact E|]. intros Hb. rewrite map_map, map_length in *. cbn [fst snd] in *.
    assert (P : INR (length xs) <> 0) by (apply not_0_INR; destruct xs; [contradiction|cbn; lia]).
    unfold apply_correction. destruct (correction s) as [c|] eqn:CS; [|destruct (N eq_refl) as [K _]; destruct xs; [contradiction|discriminate]].
    assert (CV : c / INR (iterations s) = batch_mean (map float_out xs) - batch_mean (map quant_nobias xs) - qb).
    { rewrite I. cbn [Nat.add]. rewrite C. unfold batch_mean. rewrite !map_length, !map_map.
      rewrite (Rsum_ext _ (fun x => mean (float_out x) - (mean (quant_nobias x) - (- qb)))).
      2:{ intros x Hxi. unfold with_bias. rewrite mean_shift by (apply Hq; exact Hxi). ring. }
      rewrite Rsum_minus, Rsum_minus. assert (K : Rsum (map (fun _ : X => - qb) xs) = INR (length xs) * - qb).
      { clear. induction xs as [|a l IH]; cbn [map Rsum fold_right length]; [cbn; ring|]. unfold Rsum in IH. rewrite IH, S_INR. ring. }
      rewrite K. field. exact P. }
    cbv zeta. rewrite CV. destruct b as [v|]; cbn [opt0]; [eexists; split; reflexivity|].
    destruct Hb as [Hb|Hb]; [contradiction|]. rewrite Hb. eexists. split; [reflexivity|]. ring.
  Qed.

  (** Unquantized bias. *)
  Theorem C48_mean : forall xs b skip, xs <> [] -> (forall x, In x xs -> quant_nobias x <> []) -> b <> None \/ skip = false ->
    exists s b', run_hooks (map (fun x => (float_out x, with_bias (opt0 b) (quant_nobias x))) xs) bc0 = Some s /\
    apply_correction skip b s = Some b' /\
    batch_mean (map (fun x => with_bias b' (quant_nobias x)) xs) = batch_mean (map float_out xs).
  Proof.
    intros xs b skip Hx Hq Hb. destruct (correction_value xs b skip (opt0 b) Hx Hq) as (s & E & H). destruct (H Hb) as (b' & E' & V).
    exists s, b'. split; [exact E|]. split; [exact E'|].
    assert (P : INR (length xs) <> 0) by (apply not_0_INR; destruct xs; [contradiction|cbn; lia]).
    assert (S : batch_mean (map (fun x => with_bias b' (quant_nobias x)) xs) = batch_mean (map quant_nobias xs) + b').
    { unfold batch_mean. rewrite !map_length, !map_map. rewrite (Rsum_ext _ (fun x => mean (quant_nobias x) - (- b'))).
      2:{ intros x Hxi. unfold with_bias. rewrite mean_shift by (apply Hq; exact Hxi). ring. }
      rewrite Rsum_minus. assert (K : Rsum (map (fun _ : X => - b') xs) = INR (length xs) * - b').
      { clear. induction xs as [|a l IH]; cbn [map Rsum fold_right length]; [cbn; ring|]. unfold Rsum in IH. rewrite IH, S_INR. ring. }
      rewrite K. field. exact P. }
    rewrite S, V. ring.
  Qed.

  (** With a bias quantizer that moves its argument by at most [e], what remains is at most 2e. *)
  Theorem C48_quant_bias : forall (qb : R -> R) e xs b, xs <> [] -> (forall x, In x xs -> quant_nobias x <> []) -> (forall v, Rabs (qb v - v) <= e) ->
    exists s b', run_hooks (map (fun x => (float_out x, with_bias (qb b) (quant_nobias x))) xs) bc0 = Some s /\
    apply_correction false (Some b) s = Some b' /\
    Rabs (batch_mean (map (fun x => with_bias (qb b') (quant_nobias x)) xs) - batch_mean (map float_out xs)) <= 2 * e.
  Proof.
    intros qb e xs b Hx Hq He. destruct (correction_value xs (Some b) false (qb b) Hx Hq) as (s & E & H). destruct (H (or_intror eq_refl)) as (b' & E' & V).
    exists s, b'. split; [exact E|]. split; [exact E'|].
    assert (P : INR (length xs) <> 0) by (apply not_0_INR; destruct xs; [contradiction|cbn; lia]).
    assert (S : batch_mean (map (fun x => with_bias (qb b') (quant_nobias x)) xs) = batch_mean (map quant_nobias xs) + qb b').
    { unfold batch_mean. rewrite !map_length, !map_map. rewrite (Rsum_ext _ (fun x => mean (quant_nobias x) - (- qb b'))).
      2:{ intros x Hxi. unfold with_bias. rewrite mean_shift by (apply Hq; exact Hxi). ring. }
      rewrite Rsum_minus. assert (K : Rsum (map (fun _ : X => - qb b') xs) = INR (length xs) * - qb b').
      { clear. induction xs as [|a l IH]; cbn [map Rsum fold_right length]; [cbn; ring|]. unfold Rsum in IH. rewrite IH, S_INR. ring. }
      rewrite K. field. exact P. }
    rewrite S. cbn [opt0] in V. pose proof (He b) as H1. pose proof (He b') as H2.
    replace (batch_mean (map quant_nobias xs) + qb b' - batch_mean (map float_out xs)) with ((qb b' - b') - (qb b - b)) by (rewrite V at 2; ring).
    unfold Rminus at 1. eapply Rle_trans; [apply Rabs_triang|]. rewrite Rabs_Ropp. lra.
  Qed.
End Layer.

(** Absent biases: created, or left absent. *)
Theorem C48_no_bias : forall s c, correction s = Some c -> apply_correction false None s = Some (c / INR (iterations s)) /\ apply_correction true None s = None.
Proof. intros s c H. unfold apply_correction. rewrite H. split; reflexivity. Qed.

(** The batches count equally whatever their sizes: with unequal sizes the mean over all samples is not corrected. *)
Theorem C48_batch_sizes_refuted : exists (f q : list (list R)) s b', length f = length q /\ (forall i, length (nth i f []) = length (nth i q [])) /\
  run_hooks (combine f q) bc0 = Some s /\ apply_correction false (Some 0) s = Some b' /\
  mean (concat (map (with_bias b') q)) <> mean (concat f).
Proof.
  exists [[0]; [2; 2; 2]], [[0]; [0; 0; 0]]. do 2 eexists. split; [reflexivity|]. split; [intros [|[|[|i]]]; reflexivity|]. split; [reflexivity|]. split; [reflexivity|].
  match goal with |- mean (concat (map (with_bias ?b) _)) <> _ => assert (B : b = 1); [|rewrite B] end.
  - unfold mean, Rsum. cbn. unfold mean, Rsum. cbn.
    field.
  - unfold mean, with_bias, Rsum. cbn. intros H. field_simplify in H. lra.
Qed.

(** The check for modules called several times never fires: every call clears the stored mean. *)
Theorem C48_never_raises : forall l, run_hooks l bc0 <> None.
Proof. intros l H. destruct (run_hooks_eq l None 0%nat) as (s & E & _). unfold bc0 in H. congruence. Qed.

(** Channel dimension: linear layers have their channels last, others at dimension 1. *)
Definition true_channel_dim (rank : nat) (is_linear : bool) : nat := if is_linear then (rank - 1)%nat else 1%nat.
Theorem C48_channel_dim : forall rank is_linear, (2 <= rank)%nat -> (is_linear = true -> (rank <= 3)%nat) -> channel_dim rank is_linear = true_channel_dim rank is_linear.
Proof.
  intros rank [] H1 H2; unfold channel_dim, true_channel_dim; [|rewrite andb_false_r; reflexivity].
  specialize (H2 eq_refl). destruct (Nat.eqb_spec rank 3); cbn [andb]; lia.
Qed.
Theorem C48_channel_dim_refuted : channel_dim 4 true <> true_channel_dim 4 true.
Proof. cbn. lia. Qed.

Example C48_example : exists s b', run_hooks [([3], [1]); ([5], [1])] bc0 = Some s /\ apply_correction false (Some 1) s = Some b' /\ b' = 4.
Proof. do 2 eexists. split; [reflexivity|]. split; [reflexivity|]. unfold mean, Rsum. cbn. unfold mean, Rsum. cbn. field. Qed.

(** ** C69: norm correction *)
(** The running mean becomes the measured one; the running variance becomes the geometric mean of
    the old and the measured one instead of the measured one. *)
Theorem C69_mean : forall om ov nm nv, 0 < ov -> 0 < nv -> fst (norm_exit om ov nm nv) = nm.
Proof.
  intros om ov nm nv H1 H2. cbn [norm_exit fst]. assert (0 < sqrt (ov / nv)) by (apply sqrt_lt_R0; apply Rdiv_lt_0_compat; assumption). field. lra.
Qed.
Theorem C69_var : forall om ov nm nv, 0 < ov -> 0 < nv -> snd (norm_exit om ov nm nv) = sqrt (ov * nv).
Proof.
  intros om ov nm nv H1 H2. cbn [norm_exit snd]. rewrite sqrt_div_alt by exact H2. rewrite sqrt_mult by lra.
  assert (0 < sqrt ov) by (apply sqrt_lt_R0; exact H1). assert (0 < sqrt nv) by (apply sqrt_lt_R0; exact H2).
  rewrite <- (sqrt_sqrt ov) at 1 by lra. field. split; lra.
Qed.
Theorem C69_var_refuted : forall om ov nm nv, 0 < ov -> 0 < nv -> ov <> nv -> snd (norm_exit om ov nm nv) <> nv.
Proof.
  intros om ov nm nv H1 H2 HN E. rewrite C69_var in E by assumption. apply HN.
  assert (ov * nv = nv * nv). { rewrite <- E at 2 3. rewrite sqrt_sqrt by nra. reflexivity. } nra.
Qed.
Example C69_example : 0 < 4 /\ snd (norm_exit 0 4 0 1) = sqrt 4.
Proof. split; [lra|]. rewrite C69_var by lra. f_equal. ring. Qed.

(** ** C70: weight clipping *)
Theorem C70_clip : forall t w, 0 <= t -> - t <= clip_weight t w <= t /\ (- t <= w <= t -> clip_weight t w = w) /\ clip_weight t (clip_weight t w) = clip_weight t w
  /\ (forall v, - t <= v <= t -> Rabs (clip_weight t w - w) <= Rabs (v - w)).
Proof.
  intros t w Ht.
  assert (CS : (w < - t /\ clip_weight t w = - t) \/ (- t <= w <= t /\ clip_weight t w = w) \/ (t < w /\ clip_weight t w = t)).
  { unfold clip_weight, Rmax. destruct (Rle_dec w (- t)); unfold Rmin.
    - destruct (Rle_dec (- t) t); [|lra]. destruct (Rle_lt_or_eq_dec _ _ r); [left; lra|right; left; lra].
    - destruct (Rle_dec w t); [right; left; lra|right; right; lra]. }
  assert (ID : forall u, - t <= u <= t -> clip_weight t u = u).
  { intros u Hu. unfold clip_weight. rewrite Rmax_left by lra. rewrite Rmin_left by lra. reflexivity. }
  assert (RG : - t <= clip_weight t w <= t) by (destruct CS as [[? ->]|[[? ->]|[? ->]]]; lra).
  split; [exact RG|]. split; [apply ID|]. split; [apply ID; exact RG|].
  intros v Hv. destruct CS as [[? ->]|[[? ->]|[? ->]]].
  - rewrite !Rabs_right by lra. lra.
  - replace (w - w) with 0 by ring. rewrite Rabs_R0. apply Rabs_pos.
  - rewrite !Rabs_left1 by lra. lra.
Qed.
Example C70_example : clip_weight 15 20 = 15.
Proof. unfold clip_weight. rewrite Rmax_left by lra. rewrite Rmin_right by lra. reflexivity. Qed.

Print Assumptions C47_enabled_after.
Print Assumptions C47_training_after.
Print Assumptions C47_observer_after.
Print Assumptions C47_no_more_stats.
Print Assumptions C47_return_quant_tensor.
Print Assumptions C47_inside.
Print Assumptions C47_inside_truncation.
Print Assumptions C47_inside_averages.
Print Assumptions C47_disabled_refuted.
Print Assumptions C47_not_enabled_refuted.
Print Assumptions C47_steps_refuted.
Print Assumptions C48_mean.
Print Assumptions C48_quant_bias.
Print Assumptions C48_no_bias.
Print Assumptions C48_batch_sizes_refuted.
Print Assumptions C48_never_raises.
Print Assumptions C48_channel_dim.
Print Assumptions C48_channel_dim_refuted.
Print Assumptions C69_mean.
Print Assumptions C69_var.
Print Assumptions C69_var_refuted.
Print Assumptions C70_clip.
