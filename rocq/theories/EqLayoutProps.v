(** C84 (weight layouts in equalization). *)
From Verif Require Import BatchNorm BatchNormProps Equalize EqualizeProofs EqualizeProps EqLayout.
From Coq Require Import Reals List Bool Arith Lra Lia FunctionalExtensionality.
Import ListNotations.
Open Scope R_scope.

(** ** Specification *)
(** What torch requires of a layer. *)
Definition wf_layer (l : layer) : Prop :=
  match l with
  | LLin TLinear _ _ _ _ _ _ => True
  | LLin (TConv g) n_in n_out _ _ _ _ | LLin (TConvT g) n_in n_out _ _ _ _ =>
      exists a b, (0 < g /\ 0 < a /\ 0 < b /\ n_in = g * a /\ n_out = g * b)%nat
  | LNorm _ _ _ _ => True
  end.
Definition n_inputs (l : layer) : nat := match l with LLin _ n_in _ _ _ _ _ => n_in | LNorm n _ _ _ => n end.
Definition n_outputs (l : layer) : nat := match l with LLin _ _ n_out _ _ _ _ => n_out | LNorm n _ _ _ => n end.
(** The layers for which the chosen axis enumerates the channels: grouped convolutions must be
    depthwise without multiplier, transposed convolutions must not be grouped. *)
Definition good_sink (l : layer) : Prop :=
  match l with
  | LLin (TConv g) n_in n_out _ _ _ _ => g = 1%nat \/ g <> n_out \/ n_in = n_out
  | LLin (TConvT g) _ n_out _ _ _ _ => g = 1%nat \/ g <> n_out
  | _ => True
  end.
Definition good_source (l : layer) : Prop :=
  match l with LLin (TConvT g) _ _ _ _ _ _ => g = 1%nat | _ => True end.

(** ** Sizes *)
Lemma div_mul_l g a : (0 < g -> g * a / g = a)%nat.
Proof. intros H. rewrite Nat.mul_comm. apply Nat.div_mul. lia. Qed.

(** The axis of a good layer has one entry per channel, and only then. *)
Theorem C84_sink_size : forall l, wf_layer l -> input_axis l <> None -> (sink_size l = n_inputs l <-> good_sink l).
Proof.
  intros [t n_in n_out K tap w b|n h w b] W A; [|split; [intros _; exact I|reflexivity]].
  destruct t as [|g|g]; cbn [wf_layer] in W.
  - split; [intros _; exact I|reflexivity].
  - destruct W as (a & c & Hg & Ha & Hc & -> & ->). unfold sink_size, input_axis in *. cbn [n_inputs good_sink].
    destruct (Nat.eqb_spec g 1) as [->|G1]; [split; [left; reflexivity|intros _]; cbn [wsize]; rewrite div_mul_l by lia; lia|].
    destruct (Nat.eqb_spec g (g * c)) as [E|E]; [|contradiction]. cbn [wsize].
    split; intros H; [right; right; congruence|]. destruct H as [H|[H|H]]; congruence.
  - destruct W as (a & c & Hg & Ha & Hc & -> & ->). unfold sink_size, input_axis in *. cbn [n_inputs good_sink].
    destruct (Nat.eqb_spec g 1) as [->|G1]; [split; [left; reflexivity|intros _]; cbn [wsize]; lia|].
    destruct (Nat.eqb_spec g (g * c)) as [E|E]; [|contradiction]. cbn [wsize]. rewrite div_mul_l by lia.
    split; intros H; [|destruct H as [H|H]; congruence].
    exfalso. assert (c = 1)%nat by nia. nia.
Qed.
Theorem C84_source_size : forall l, wf_layer l -> (source_size l = n_outputs l <-> good_source l).
Proof.
  intros [t n_in n_out K tap w b|n h w b] W; [|split; [intros _; exact I|reflexivity]].
  destruct t as [|g|g]; cbn [wf_layer] in W; unfold source_size; cbn [output_axis wsize n_outputs good_source].
  - tauto.
  - tauto.
  - destruct W as (a & c & Hg & Ha & Hc & -> & ->). rewrite div_mul_l by lia. split; intros H; [nia|subst; lia].
Qed.

(** ** Scaling along the axis *)
Lemma group_same g a b o i : (0 < g -> 0 < a -> 0 < b -> i < g * a -> o < g * b -> i / a < g /\ o / b < g)%nat.
Proof. intros. split; apply Nat.div_lt_upper_bound; lia. Qed.

(** Layers with the same weights on their channels. *)
Definition same (m m' : module) : Prop :=
  match m, m' with
  | Lin n_in n_out K tap w b, Lin n_in' n_out' K' tap' w' b' =>
      n_in = n_in' /\ n_out = n_out' /\ K = K' /\ tap = tap'
      /\ (forall o i k, o < n_out -> i < n_in -> w o i k = w' o i k)%nat /\ (forall o, (o < n_out)%nat -> b o = b' o)
  | _, _ => m = m'
  end.
Lemma same_refl m : same m m.
Proof. destruct m; cbn; auto 10. Qed.
Lemma same_fwd m m' x : same m m' -> fwd m x = fwd m' x.
Proof.
  destruct m as [n_in n_out K tap w b|n h w b], m' as [n_in' n_out' K' tap' w' b'|n' h' w' b']; cbn [same]; try discriminate;
    [|intros E; injection E as -> -> -> ->; reflexivity].
  intros (<- & <- & <- & <- & Hw & Hb). apply functional_extensionality. intros o. apply functional_extensionality. intros p. cbn [fwd].
  destruct (Nat.ltb_spec o n_out) as [Ho|]; [|reflexivity]. rewrite (Hb o Ho). f_equal. f_equal.
  apply map_ext_in. intros i Hi. apply in_seq in Hi. f_equal. apply map_ext. intros k. rewrite (Hw o i k); [reflexivity|exact Ho|lia].
Qed.
Lemma same_trans m1 m2 m3 : same m1 m2 -> same m2 m3 -> same m1 m3.
Proof.
  destruct m1, m2, m3; cbn [same]; try congruence.
  intros (-> & -> & -> & -> & A & B) (-> & -> & -> & -> & C & D). repeat split; auto.
  - intros. rewrite A, C; auto.
  - intros. rewrite B, D; auto.
Qed.
Lemma same_sink s m m' : same m m' -> same (scale_sink s m) (scale_sink s m').
Proof.
  destruct m, m'; cbn [same scale_sink]; try discriminate; [|intros E; injection E as -> -> -> ->; reflexivity].
  intros (-> & -> & -> & -> & A & B). repeat split; auto. intros. rewrite A; auto.
Qed.

(** A good sink scaled along its axis is the layer with every input channel scaled. *)
Lemma sink_same l ax s : wf_layer l -> good_sink l -> input_axis l = Some ax -> is_norm (to_mod l) = false ->
  same (to_mod (update_sink ax s l)) (scale_sink s (to_mod l)).
Proof.
  destruct l as [t n_in n_out K tap w b|n h w b]; intros W G A N; [|discriminate]. clear N.
  cbn [update_sink to_mod scale_sink same]. do 4 (split; [reflexivity|]). split; [|reflexivity]. intros o i k Ho Hi.
  unfold scale_axis. destruct t as [|g|g]; cbn [wf_layer good_sink input_axis] in *; cbn [dense].
  - injection A as <-. reflexivity.
  - destruct W as (a & c & Hg & Ha & Hc & -> & ->). rewrite !div_mul_l by lia.
    destruct (Nat.eqb_spec (i / a) (o / c)) as [E|E]; [|ring]. f_equal. f_equal.
    destruct (Nat.eqb_spec g 1) as [->|G1].
    + injection A as <-. apply Nat.mod_small. lia.
    + destruct (Nat.eqb_spec g (g * c)) as [E2|E2]; [|discriminate]. injection A as <-.
      assert (c = 1)%nat by nia. subst c. assert (a = 1)%nat by (destruct G as [G|[G|G]]; nia). subst a.
      rewrite !Nat.div_1_r in E. congruence.
  - destruct W as (a & c & Hg & Ha & Hc & -> & ->). rewrite !div_mul_l by lia.
    destruct (Nat.eqb_spec (i / a) (o / c)) as [E|E]; [|ring]. f_equal. f_equal.
    destruct (Nat.eqb_spec g 1) as [->|G1]; [injection A as <-; reflexivity|].
    destruct (Nat.eqb_spec g (g * c)) as [E2|E2]; [|discriminate]. destruct G as [G|G]; congruence.
Qed.
Theorem C84_sink_scaling : forall l ax s x, wf_layer l -> good_sink l -> input_axis l = Some ax -> is_norm (to_mod l) = false ->
  (forall c, 0 < s c) -> fwd (to_mod (update_sink ax s l)) (fun c p => x c p * / s c) = fwd (to_mod l) x.
Proof.
  intros l ax s x W G A N Hs. rewrite (same_fwd _ _ _ (sink_same l ax s W G A N)). apply fwd_sink; assumption.
Qed.

(** A good source never raises, and scaled along its axis is the layer with every output
    channel scaled. *)
Lemma source_same l s : wf_layer l -> good_source l ->
  exists l', update_source s l = Some l' /\ same (to_mod l') (scale_src s (to_mod l)).
Proof.
  intros W G. pose proof (proj2 (C84_source_size l W) G) as Z.
  destruct l as [t n_in n_out K tap w b|n h w b]; [|eexists; split; reflexivity].
  cbn [n_outputs] in Z.
  assert (D : forall o i k, (o < n_out -> i < n_in -> 
      (dense t n_in n_out (scale_axis (output_axis (LLin t n_in n_out K tap w b)) (fun c => / s c) w) o i k = dense t n_in n_out w o i k * / s o)%R)%nat).
  { intros o i k Ho Hi. unfold scale_axis. destruct t as [|g|g]; cbn [wf_layer good_source] in *; cbn [dense output_axis].
    - reflexivity.
    - destruct (_ =? _)%nat; [reflexivity|ring].
    - subst g. rewrite !Nat.div_1_r. destruct (_ =? _)%nat; [|ring]. rewrite Nat.mod_small by exact Ho. reflexivity. }
  unfold update_source. destruct b as [bv|].
  - rewrite Z, Nat.eqb_refl. eexists. split; [reflexivity|]. cbn [to_mod scale_src same]. do 4 (split; [reflexivity|]). split; [exact D|reflexivity].
  - eexists. split; [reflexivity|]. cbn [to_mod scale_src same]. do 4 (split; [reflexivity|]). split; [exact D|]. intros o _. cbn [bias_of]. ring.
Qed.
Theorem C84_source_scaling : forall l s, wf_layer l -> good_source l -> (forall c, 0 < s c) ->
  exists l', update_source s l = Some l' /\ forall x c p, fwd (to_mod l') x c p = fwd (to_mod l) x c p * / s c.
Proof.
  intros l s W G Hs. destruct (source_same l s W G) as (l' & E & H). exists l'. split; [exact E|]. intros x c p.
  rewrite (same_fwd _ _ _ H), fwd_src by exact Hs. reflexivity.
Qed.

(** ** Regions *)
Lemma eval_ext g M M' : (forall m x, fwd (M m) x = fwd (M' m) x) -> forall e, eval g M e = eval g M' e.
Proof.
  intros H. induction g as [|[i k] g IH]; intros e; [reflexivity|]. cbn [eval]. rewrite IH. f_equal.
  apply functional_extensionality. intros j. destruct (j =? i)%nat; [|reflexivity].
  destruct k; cbn [eval_kind]; auto.
Qed.

Lemma update_source_shape s l l' : update_source s l = Some l' ->
  input_axis l' = input_axis l /\ is_norm (to_mod l') = is_norm (to_mod l) /\ (wf_layer l' <-> wf_layer l)
  /\ (good_sink l' <-> good_sink l) /\ (good_source l' <-> good_source l).
Proof.
  destruct l as [t n_in n_out K tap w b|n h w b]; cbn [update_source].
  - destruct b as [bv|]; [destruct (_ =? _)%nat; [|discriminate]|]; intros E; injection E as <-;
      (destruct t; repeat split; auto).
  - intros E. injection E as <-. repeat split; auto.
Qed.
Lemma update_sink_shape ax s l : input_axis (update_sink ax s l) = input_axis l /\ is_norm (to_mod (update_sink ax s l)) = is_norm (to_mod l)
  /\ (wf_layer (update_sink ax s l) <-> wf_layer l) /\ (good_sink (update_sink ax s l) <-> good_sink l)
  /\ (good_source (update_sink ax s l) <-> good_source l).
Proof. destruct l as [t n_in n_out K tap w b|n h w b]; [destruct t|]; repeat split; auto. Qed.

Definition good_layer (l : layer) : Prop := wf_layer l /\ good_sink l /\ good_source l.

(** The scaling along weight axes is the scaling of channels of C37, for every region. *)
Lemma cross_layer_abstract alpha st L : (forall m, good_layer (L m)) -> (forall m, In m (sinks st) -> is_norm (to_mod (L m)) = false) ->
  exists L', cross_layer alpha st L = Some L'
    /\ (forall m, good_layer (L' m) /\ is_norm (to_mod (L' m)) = is_norm (to_mod (L m)))
    /\ ((forall m x, fwd (to_mod (L' m)) x = fwd (to_mod (L m)) x)
        \/ exists s, (forall c, 0 < s c) /\ forall m x, fwd (to_mod (L' m)) x = fwd (apply_region st s (fun m => to_mod (L m)) m) x).
Proof.
  intros GL NS. unfold cross_layer.
  destruct (negb _); [exists L; split; [reflexivity|]; split; [intros m; split; auto|left; reflexivity]|].
  match goal with |- context [if existsb ?f (sinks st) then _ else _] => destruct (existsb f (sinks st)) eqn:EA end;
    [exists L; split; [reflexivity|]; split; [intros m; split; auto|left; reflexivity]|].
  set (s := layout_factors alpha L st).
  assert (Sp : forall c, 0 < s c) by (intros c; apply C37_factor_positive). clearbody s.
  assert (Ax : forall m, In m (sinks st) -> exists ax, input_axis (L m) = Some ax).
  { intros m Hm. destruct (input_axis (L m)) as [ax|] eqn:E; [eexists; reflexivity|].
    exfalso. rewrite <- not_true_iff_false in EA. apply EA. apply existsb_exists. exists m. rewrite E. auto. }
  match goal with |- context [if ?c then _ else _] => destruct c eqn:EF end.
  2:{ exfalso. rewrite <- not_true_iff_false in EF. apply EF. apply forallb_forall. intros m _.
      destruct (GL m) as (W & _ & G). destruct (source_same (L m) s W G) as (l' & E & _). rewrite E. reflexivity. }
  eexists. split; [reflexivity|].
  assert (K : forall m, let l1 := if mem m (srcs st) then match update_source s (L m) with Some l => l | None => L m end else L m in
            input_axis l1 = input_axis (L m) /\ is_norm (to_mod l1) = is_norm (to_mod (L m)) /\ good_layer l1
            /\ same (to_mod l1) (if mem m (srcs st) then scale_src s (to_mod (L m)) else to_mod (L m))).
  { intros m l1. unfold l1. destruct (GL m) as (W & Gk & G). destruct (mem m (srcs st)); [|repeat split; auto using same_refl].
    destruct (source_same (L m) s W G) as (l' & E & Hx). rewrite E.
    destruct (update_source_shape s (L m) l' E) as (H1 & H2 & H3 & H4 & H5).
    split; [exact H1|]. split; [exact H2|]. split; [split; [tauto|split; tauto]|exact Hx]. }
  split.
  - intros m. destruct (K m) as (H1 & H2 & H3 & _). cbv zeta.
    match goal with |- context [update_sink (some_axis ?l)] => set (l1 := l) in * end.
    destruct (mem m (sinks st)); [|split; assumption].
    destruct (update_sink_shape (some_axis l1) s l1) as (_ & U2 & U3 & U4 & U5).
    destruct H3 as (A & B & C). split; [split; [tauto|split; tauto]|congruence].
  - right. exists s. split; [exact Sp|]. intros m x. destruct (K m) as (H1 & H2 & (W & Gk & G) & H4). cbv zeta.
    match goal with |- context [update_sink (some_axis ?l)] => set (l1 := l) in * end.
    apply same_fwd. unfold apply_region. destruct (mem m (sinks st)) eqn:Sk; [|exact H4].
    apply mem_in in Sk. destruct (Ax m Sk) as (ax & Hax).
    assert (A1 : input_axis l1 = Some ax) by congruence.
    unfold some_axis. rewrite A1. eapply same_trans; [apply (sink_same l1 ax s W Gk A1); rewrite H2; apply NS; exact Sk|].
    apply same_sink. exact H4.
Qed.

(** Any number of passes over valid regions of a concatenation-free graph whose layers are good
    raises nothing and leaves every graph output unchanged, for every input. *)
Theorem C84_equalize : forall D g L0 alpha steps e,
  wf D g -> unshared g -> no_mul g -> no_add_const g -> inv_hom g -> (forall m, good_layer (L0 m)) ->
  Forall (fun st => exists n, region g (fun m => to_mod (L0 m)) n = Some st) steps ->
  exists L', layout_equalize alpha steps L0 = Some L'
    /\ forall v f ins, In (v, KOther f ins) g ->
       eval g (fun m => to_mod (L' m)) e v = eval g (fun m => to_mod (L0 m)) e v.
Proof.
  intros D g L0 alpha steps e W US NM NC IH GL HF.
  assert (Gen : forall steps L, Forall (fun st => exists n, region g (fun m => to_mod (L0 m)) n = Some st) steps ->
            (forall m, good_layer (L m)) -> (forall m, is_norm (to_mod (L m)) = is_norm (to_mod (L0 m))) ->
            exists L', layout_equalize alpha steps L = Some L'
              /\ forall v f ins, In (v, KOther f ins) g -> eval g (fun m => to_mod (L' m)) e v = eval g (fun m => to_mod (L m)) e v).
  { clear steps HF. induction steps as [|st steps IHs]; intros L HF GL' MN; [exists L; split; [reflexivity|]; intros; reflexivity|].
    inversion_clear HF as [|? ? (n & Hn) HF'].
    pose proof (region_closed D g _ W NM n st Hn) as Gd.
    destruct (cross_layer_abstract alpha st L GL') as (L1 & E1 & GL1 & Hc).
    { intros m Hm. rewrite MN. destruct (proj2 (proj2 Gd) m Hm) as (a & b & i & _ & Kb).
      exact (sink_not_norm D g _ st W US Gd b m i Kb (proj2 (mem_in m (sinks st)) Hm)). }
    destruct (IHs L1 HF') as (L' & E' & H').
    - intros m. apply GL1.
    - intros m. rewrite <- MN. apply GL1.
    - exists L'. cbn [layout_equalize]. rewrite E1. split; [exact E'|]. intros v f ins Hv. rewrite (H' v f ins Hv).
      destruct Hc as [Hc|(s & Hs & Hc)].
      + rewrite (eval_ext g _ (fun m => to_mod (L m)) Hc). reflexivity.
      + rewrite (eval_ext g _ (apply_region st s (fun m => to_mod (L m))) Hc).
        rewrite (region_preserves D g (fun m => to_mod (L0 m)) n st (fun m => to_mod (L m)) s e W US NM NC IH Hn MN Hs).
        * apply (other_expect g st _ _ v f ins). apply (kind_of_spec D g W). exact Hv.
        * right. apply (in_map fst) in Hv. exact Hv. }
  apply Gen; [exact HF|exact GL|reflexivity].
Qed.

(** A lone sink with the wrong axis is skipped when the sources have as many channels as it
    has inputs. *)
Theorem C84_lone_sink_skipped : forall alpha L st k, sinks st = [k] -> srcs st <> [] ->
  (forall m, In m (srcs st) -> wf_layer (L m) /\ good_source (L m) /\ n_outputs (L m) = n_inputs (L k)) ->
  wf_layer (L k) -> ~ good_sink (L k) -> cross_layer alpha st L = Some L.
Proof.
  intros alpha L st k Ek Ne Hs W G. unfold cross_layer. rewrite Ek.
  destruct (input_axis (L k)) as [ax|] eqn:A.
  - assert (Z : sink_size (L k) <> n_inputs (L k)).
    { intros Z. apply G. apply (C84_sink_size (L k) W); [congruence|exact Z]. }
    assert (E : nmax (map (fun m => source_size (L m)) (srcs st)) = n_inputs (L k)).
    { destruct (srcs st) as [|m0 ms]; [contradiction|]. clear Ne.
      assert (H0 : forall m, In m (m0 :: ms) -> source_size (L m) = n_inputs (L k)).
      { intros m Hm. destruct (Hs m Hm) as (W1 & G1 & N1). rewrite <- N1. apply C84_source_size; assumption. }
      clear - H0. revert m0 H0. induction ms as [|m1 ms IH]; intros m0 H0.
      - cbn. rewrite (H0 m0 (or_introl eq_refl)). lia.
      - change (nmax (map (fun m => source_size (L m)) (m0 :: m1 :: ms))) with (Nat.max (source_size (L m0)) (nmax (map (fun m => source_size (L m)) (m1 :: ms)))).
        rewrite (IH m1) by (intros m Hm; apply H0; right; exact Hm). rewrite (H0 m0 (or_introl eq_refl)). lia. }
    rewrite E. cbn [map nmax fold_right]. rewrite Nat.max_0_r.
    destruct (Nat.eqb_spec (n_inputs (L k)) (sink_size (L k))) as [E2|E2]; [congruence|reflexivity].
  - destruct (negb _); [reflexivity|]. cbn [existsb]. rewrite A. reflexivity.
Qed.
Example C84_lone_sink_example :
  let L : layers := fun m => if (m =? 10)%nat then LLin (TConv 1) 1 4 1 (fun p _ => Some p) (fun _ _ _ => 1) None
                             else LLin (TConv 2) 4 2 1 (fun p _ => Some p) (fun _ _ _ => 1) None in
  wf_layer (L 11%nat) /\ ~ good_sink (L 11%nat) /\ wf_layer (L 10%nat) /\ good_source (L 10%nat) /\ n_outputs (L 10%nat) = n_inputs (L 11%nat).
Proof.
  cbn. split; [exists 2%nat, 1%nat; lia|]. split; [intros [H|[H|H]]; lia|]. split; [exists 1%nat, 4%nat; lia|]. split; [exact I|reflexivity].
Qed.

(** ** Examples and refutations *)
Definition plain (t : ltype) (n_in n_out : nat) (w : nat -> nat -> nat -> R) : layer := LLin t n_in n_out 1 idtap w None.

(** A depthwise convolution between two ordinary ones. *)
Definition dw_graph : graph := [(1, KLayer 10 0); (2, KInv relu 1); (3, KLayer 11 2); (4, KLayer 12 3); (5, KOther out1 [4])]%nat.
Definition dw_layers : layers := fun m =>
  if (m =? 10)%nat then plain (TConv 1) 3 4 (fun o i _ => INR (o + i))
  else if (m =? 11)%nat then plain (TConv 4) 4 4 (fun o _ _ => INR (S o)) else plain (TConvT 1) 4 2 (fun i o _ => 1).
Example C84_example : (forall m, good_layer (dw_layers m))
  /\ (exists st, region dw_graph (fun m => to_mod (dw_layers m)) 1 = Some st /\ srcs st = [10%nat] /\ sinks st = [11%nat])
  /\ (exists st, region dw_graph (fun m => to_mod (dw_layers m)) 3 = Some st /\ srcs st = [11%nat] /\ sinks st = [12%nat]).
Proof.
  split.
  - intros m. unfold dw_layers. destruct (m =? 10)%nat; [|destruct (m =? 11)%nat].
    + split; [exists 3%nat, 4%nat; lia|]. split; [left; reflexivity|exact I].
    + split; [exists 1%nat, 1%nat; lia|]. split; [right; right; reflexivity|exact I].
    + split; [exists 4%nat, 2%nat; lia|]. split; [left; reflexivity|reflexivity].
  - split; eexists; (split; [reflexivity|split; reflexivity]).
Qed.

(** A source with four channels feeding an ordinary convolution and a convolution with as many
    groups as outputs but two inputs per group: the second is scaled along its outputs. *)
Definition two_sinks : graph :=
  [(1, KLayer 10 0); (2, KLayer 11 1); (3, KLayer 12 1); (4, KOther out1 [2]); (5, KOther out1 [3])]%nat.
Definition mult_layers : layers := fun m =>
  if (m =? 10)%nat then plain TLinear 1 4 (fun o _ _ => if (o =? 0)%nat then 4 else 1)
  else if (m =? 11)%nat then plain TLinear 4 1 (fun _ _ _ => 1) else plain (TConv 2) 4 2 (fun _ _ _ => 1).
(** The same with a depthwise transposed convolution. *)
Definition tconv_layers : layers := fun m =>
  if (m =? 10)%nat then plain TLinear 1 2 (fun o _ _ => if (o =? 0)%nat then 4 else 1)
  else if (m =? 11)%nat then plain TLinear 2 1 (fun _ _ _ => 1) else plain (TConvT 2) 2 2 (fun _ _ _ => 1).

Definition scaled_layers (s : nat -> R) (st : wstate) (L : layers) : layers := fun m =>
  let l1 := if mem m (srcs st) then match update_source s (L m) with Some l => l | None => L m end else L m in
  if mem m (sinks st) then update_sink (some_axis l1) s l1 else l1.
Definition st2 : wstate := W [10%nat] [12; 11]%nat [(1, 3); (1, 2)]%nat false.
Lemma factor_1_1 : scaling_factor (/ 2) 1 1 = 1.
Proof.
  unfold scaling_factor, EPSILON. destruct (Rle_dec 1 (/ 1000000000)); [lra|]. cbn [orb].
  unfold Rpower. rewrite ln_1, !Rmult_0_r, exp_0. field.
Qed.
Ltac rmx := unfold rmax; cbn [fold_right]; repeat match goal with |- context [Rmax ?a ?b] => first [rewrite (Rmax_left a b) by lra | rewrite (Rmax_right a b) by lra] end.
Ltac unf := unfold layout_factors, range_over; cbn [filter srcs sinks st2 Nat.eqb Nat.ltb Nat.leb]; unfold source_size, sink_size; cbn [mult_layers tconv_layers plain Nat.eqb output_axis input_axis wsize Nat.ltb Nat.leb Nat.div Nat.divmod fst filter]; cbn [srcs sinks st2 map mult_layers tconv_layers plain Nat.eqb output_axis some_axis input_axis];
  unfold axis_range, plain; cbn [wsize Nat.ltb Nat.leb other_size n_taps entry seq flat_map map app negb Nat.div Nat.divmod fst Nat.eqb].

Lemma mult_factors : layout_factors (/ 2) mult_layers st2 0 = 2 /\ layout_factors (/ 2) mult_layers st2 1 = 1.
Proof.
  split; unf; rewrite ?(Rabs_pos_eq 4), ?(Rabs_pos_eq 1) by lra.
  - transitivity (scaling_factor (/ 2) 4 1); [f_equal; rmx; reflexivity|exact factor_4_1].
  - transitivity (scaling_factor (/ 2) 1 1); [f_equal; rmx; reflexivity|exact factor_1_1].
Qed.
Lemma tconv_factors : layout_factors (/ 2) tconv_layers st2 0 = 2 /\ layout_factors (/ 2) tconv_layers st2 1 = 1.
Proof.
  split; unf; rewrite ?(Rabs_pos_eq 4), ?(Rabs_pos_eq 1) by lra.
  - transitivity (scaling_factor (/ 2) 4 1); [f_equal; rmx; reflexivity|exact factor_4_1].
  - transitivity (scaling_factor (/ 2) 1 1); [f_equal; rmx; reflexivity|exact factor_1_1].
Qed.

Ltac graph_side := match goal with
  | |- wf _ _ => cbn; unfold incl; cbn [In]; repeat split; lia
  | |- unshared _ => intros i j m a b H1 H2; cbn in H1, H2;
      repeat match type of H1 with _ \/ _ => destruct H1 as [H1|H1] end; try discriminate; try contradiction; injection H1 as <- <- <-;
      repeat match type of H2 with _ \/ _ => destruct H2 as [H2|H2] end; try discriminate; try contradiction; injection H2 as <- <-; reflexivity
  | |- no_mul _ => intros i a b H; cbn in H; repeat match type of H with _ \/ _ => destruct H as [H|H] end; try discriminate; contradiction
  | |- no_add_const _ => intros i ins c H; cbn in H; repeat match type of H with _ \/ _ => destruct H as [H|H] end; try discriminate; contradiction
  | |- inv_hom _ => intros i f a H; cbn in H; repeat match type of H with _ \/ _ => destruct H as [H|H] end; try discriminate; contradiction
  end.
Lemma two_sinks_ok : wf [0%nat] two_sinks /\ unshared two_sinks /\ no_mul two_sinks /\ no_add_const two_sinks /\ inv_hom two_sinks.
Proof. split; [graph_side|]. split; [graph_side|]. split; [graph_side|]. split; graph_side. Qed.
Ltac evl := cbn [two_sinks eval eval_kind Nat.eqb Nat.ltb Nat.leb to_mod dense bias_of fwd plain out1 map seq Rsum read idtap update_sink update_source
  scale_axis output_axis mem existsb srcs sinks orb st2 mult_layers tconv_layers some_axis input_axis Nat.div Nat.modulo Nat.divmod fst snd Nat.sub].

Theorem C84_channel_multiplier_refuted : exists D g L n st e L',
  wf D g /\ unshared g /\ no_mul g /\ no_add_const g /\ inv_hom g /\ (forall m, wf_layer (L m) /\ good_source (L m))
  /\ region g (fun m => to_mod (L m)) n = Some st /\ cross_layer (/ 2) st L = Some L'
  /\ In (5%nat, KOther out1 [3%nat]) g
  /\ eval g (fun m => to_mod (L' m)) e 5%nat 0%nat 0%nat <> eval g (fun m => to_mod (L m)) e 5%nat 0%nat 0%nat.
Proof.
  exists [0%nat], two_sinks, mult_layers, 1%nat, st2, (fun _ _ _ => 1), (scaled_layers (layout_factors (/ 2) mult_layers st2) st2 mult_layers).
  destruct two_sinks_ok as (G1 & G2 & G3 & G4 & G5). do 5 (split; [assumption|]).
  split.
  { intros m. unfold mult_layers, plain. destruct (m =? 10)%nat; [split; exact I|]. destruct (m =? 11)%nat; [split; exact I|].
    split; [exists 2%nat, 1%nat; lia|exact I]. }
  split; [reflexivity|]. split; [reflexivity|]. split; [do 4 right; left; reflexivity|].
  destruct mult_factors as (F0 & F1). revert F0 F1. generalize (layout_factors (/ 2) mult_layers st2). intros s F0 F1. unfold scaled_layers. evl. unfold plain. evl. unfold scale_axis. cbn [Nat.eqb]. rewrite ?F0, ?F1.
  apply Rgt_not_eq. lra.
Qed.
Theorem C84_depthwise_transposed_refuted : exists D g L n st e L',
  wf D g /\ unshared g /\ no_mul g /\ no_add_const g /\ inv_hom g /\ (forall m, wf_layer (L m))
  /\ region g (fun m => to_mod (L m)) n = Some st /\ cross_layer (/ 2) st L = Some L'
  /\ In (5%nat, KOther out1 [3%nat]) g
  /\ eval g (fun m => to_mod (L' m)) e 5%nat 1%nat 0%nat <> eval g (fun m => to_mod (L m)) e 5%nat 1%nat 0%nat.
Proof.
  exists [0%nat], two_sinks, tconv_layers, 1%nat, st2, (fun _ _ _ => 1), (scaled_layers (layout_factors (/ 2) tconv_layers st2) st2 tconv_layers).
  destruct two_sinks_ok as (G1 & G2 & G3 & G4 & G5). do 5 (split; [assumption|]).
  split.
  { intros m. unfold tconv_layers, plain. destruct (m =? 10)%nat; [exact I|]. destruct (m =? 11)%nat; [exact I|].
    exists 1%nat, 1%nat. lia. }
  split; [reflexivity|]. split; [reflexivity|]. split; [do 4 right; left; reflexivity|].
  destruct tconv_factors as (F0 & F1). revert F0 F1. generalize (layout_factors (/ 2) tconv_layers st2). intros s F0 F1. unfold scaled_layers. evl. unfold plain. evl. unfold scale_axis. cbn [Nat.eqb]. rewrite ?F0, ?F1. apply Rgt_not_eq. lra.
Qed.

(** A grouped transposed convolution before a convolution with two inputs per group: both sizes
    are wrong and equal. *)
Definition chain2 : graph := [(1, KLayer 10 0); (2, KLayer 11 1); (3, KOther out1 [2])]%nat.
Definition st1 : wstate := W [10%nat] [11%nat] [(1, 2)]%nat false.
Definition pair_layers : layers := fun m =>
  if (m =? 10)%nat then plain (TConvT 2) 2 4 (fun _ o _ => if (o =? 0)%nat then 4 else 1) else plain (TConv 2) 4 2 (fun _ _ _ => 1).
Lemma chain2_ok : wf [0%nat] chain2 /\ unshared chain2 /\ no_mul chain2 /\ no_add_const chain2 /\ inv_hom chain2.
Proof. split; [graph_side|]. split; [graph_side|]. split; [graph_side|]. split; graph_side. Qed.
Lemma pair_factors : layout_factors (/ 2) pair_layers st1 0 = 2 /\ layout_factors (/ 2) pair_layers st1 1 = 1.
Proof.
  split; unfold layout_factors, range_over; cbn [filter srcs sinks st1 Nat.eqb Nat.ltb Nat.leb]; unfold source_size, sink_size, pair_layers, plain;
    cbn [Nat.eqb output_axis input_axis wsize Nat.ltb Nat.leb Nat.div Nat.divmod fst filter map some_axis]; unfold axis_range;
    cbn [wsize Nat.ltb Nat.leb other_size n_taps entry seq flat_map map app negb Nat.div Nat.divmod fst Nat.eqb];
    rewrite ?(Rabs_pos_eq 4), ?(Rabs_pos_eq 1) by lra.
  - transitivity (scaling_factor (/ 2) 4 1); [f_equal; rmx; reflexivity|exact factor_4_1].
  - transitivity (scaling_factor (/ 2) 1 1); [f_equal; rmx; reflexivity|exact factor_1_1].
Qed.
Theorem C84_grouped_pair_refuted : exists D g L n st e L',
  wf D g /\ unshared g /\ no_mul g /\ no_add_const g /\ inv_hom g /\ (forall m, wf_layer (L m))
  /\ region g (fun m => to_mod (L m)) n = Some st /\ cross_layer (/ 2) st L = Some L'
  /\ In (3%nat, KOther out1 [2%nat]) g
  /\ eval g (fun m => to_mod (L' m)) e 3%nat 0%nat 0%nat <> eval g (fun m => to_mod (L m)) e 3%nat 0%nat 0%nat.
Proof.
  exists [0%nat], chain2, pair_layers, 1%nat, st1, (fun _ _ _ => 1), (scaled_layers (layout_factors (/ 2) pair_layers st1) st1 pair_layers).
  destruct chain2_ok as (G1 & G2 & G3 & G4 & G5). do 5 (split; [assumption|]).
  split.
  { intros m. unfold pair_layers, plain. destruct (m =? 10)%nat; [exists 1%nat, 2%nat; lia|exists 2%nat, 1%nat; lia]. }
  split; [reflexivity|]. split; [reflexivity|]. split; [do 2 right; left; reflexivity|].
  destruct pair_factors as (F0 & F1). revert F0 F1. generalize (layout_factors (/ 2) pair_layers st1). intros s F0 F1.
  unfold scaled_layers, chain2, st1. evl. cbn [pair_layers Nat.eqb]. unfold plain. evl. unfold scale_axis. cbn [Nat.eqb]. rewrite ?F0, ?F1. apply Rgt_not_eq. lra.
Qed.

(** Two depthwise transposed convolutions in sequence: both sizes are 1, and the bias of the
    first makes the transformation raise. *)
Definition raise_layers : layers := fun m => LLin (TConvT 2) 2 2 1 idtap (fun _ _ _ => 1) (Some (fun _ => 1)).
Theorem C84_depthwise_bias_refuted : exists D g L n st,
  wf D g /\ unshared g /\ no_mul g /\ no_add_const g /\ inv_hom g /\ (forall m, wf_layer (L m))
  /\ region g (fun m => to_mod (L m)) n = Some st /\ cross_layer (/ 2) st L = None.
Proof.
  exists [0%nat], chain2, raise_layers, 1%nat, st1.
  destruct chain2_ok as (G1 & G2 & G3 & G4 & G5). do 5 (split; [assumption|]).
  split; [intros m; exists 1%nat, 1%nat; lia|]. split; reflexivity.
Qed.

Print Assumptions C84_sink_size.
Print Assumptions C84_source_size.
Print Assumptions C84_sink_scaling.
Print Assumptions C84_source_scaling.
Print Assumptions C84_equalize.
Print Assumptions C84_lone_sink_skipped.
Print Assumptions C84_channel_multiplier_refuted.
Print Assumptions C84_depthwise_transposed_refuted.
Print Assumptions C84_grouped_pair_refuted.
Print Assumptions C84_depthwise_bias_refuted.
