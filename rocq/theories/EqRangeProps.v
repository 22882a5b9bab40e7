(** C84, C85 (continued): the ranges equalization computes are the largest weight magnitudes of
    the channels, and it makes those of sources and sinks equal. *)
From Verif Require Import BatchNorm BatchNormProps Equalize EqualizeProofs EqualizeProps EqLayout EqLayoutProps ActEqualize.
From Coq Require Import Reals List Bool Arith Lra Lia.
Import ListNotations.
Open Scope R_scope.

(** ** Specification *)
(** [r] is the largest element of [P]. *)
Definition max_of (P : R -> Prop) (r : R) : Prop := P r /\ forall x, P x -> x <= r.
(** Magnitudes of the weights that write output channel [c], and that read input channel [c]. *)
Definition touches_out (m : module) (c : nat) (x : R) : Prop :=
  match m with
  | Lin n_in _ K _ w _ => exists i k, (i < n_in /\ k < K)%nat /\ x = Rabs (w c i k)
  | Norm _ _ w _ => x = Rabs (w c)
  end.
Definition touches_in (m : module) (c : nat) (x : R) : Prop :=
  match m with
  | Lin _ n_out K _ w _ => exists o k, (o < n_out /\ k < K)%nat /\ x = Rabs (w o c k)
  | Norm _ _ w _ => x = Rabs (w c)
  end.

Lemma max_unique P r r' : max_of P r -> max_of P r' -> r = r'.
Proof. intros (A & B) (C & D). apply Rle_antisym; [apply D, A|apply B, C]. Qed.
Lemma rmax_ge l x : In x l -> x <= rmax l.
Proof. induction l as [|a l IH]; [intros []|]. intros [->|H]; cbn [rmax fold_right]; [apply Rmax_l|]. eapply Rle_trans; [apply IH, H|apply Rmax_r]. Qed.
Lemma rmax_in l : l <> [] -> (forall x, In x l -> 0 <= x) -> In (rmax l) l.
Proof.
  induction l as [|a l IH]; intros N H; [congruence|]. cbn [rmax fold_right]. fold (rmax l). destruct l as [|b l].
  - cbn. left. symmetry. apply Rmax_left. specialize (H a (or_introl eq_refl)). lra.
  - assert (In (rmax (b :: l)) (b :: l)) by (apply IH; [discriminate|intros; apply H; right; assumption]).
    unfold Rmax. destruct (Rle_dec a (rmax (b :: l))); [right; assumption|left; reflexivity].
Qed.
(** Lists that hold the elements of [P], up to zero. *)
Lemma rmax_max l (P : R -> Prop) : l <> [] -> (forall x, In x l -> 0 <= x /\ P x) -> (forall x, P x -> x = 0 \/ In x l) -> max_of P (rmax l).
Proof.
  intros N H1 H2. pose proof (rmax_in l N (fun x Hx => proj1 (H1 x Hx))) as I0. split; [apply H1; exact I0|].
  intros x Hx. destruct (H2 x Hx) as [->|Hi]; [apply H1 in I0; tauto|apply rmax_ge; exact Hi].
Qed.
Lemma in_entries l ax c x : In x (flat_map (fun j => map (fun k => Rabs (entry l ax c j k)) (seq 0 (n_taps l))) (seq 0 (other_size l ax)))
  <-> exists j k, (j < other_size l ax /\ k < n_taps l)%nat /\ x = Rabs (entry l ax c j k).
Proof.
  rewrite in_flat_map. split.
  - intros (j & Hj & Hx). apply in_map_iff in Hx. destruct Hx as (k & <- & Hk). apply in_seq in Hj, Hk. exists j, k. split; [lia|reflexivity].
  - intros (j & k & (Hj & Hk) & ->). exists j. split; [apply in_seq; lia|]. apply in_map_iff. exists k. split; [reflexivity|apply in_seq; lia].
Qed.

(** The source range of a channel is the largest magnitude among the weights writing it, whatever
    the layout. *)
Theorem C84_source_range : forall l c, wf_layer l -> good_source l -> (c < n_outputs l)%nat -> (exists x, touches_out (to_mod l) c x) ->
  max_of (touches_out (to_mod l) c) (axis_range l (output_axis l) c).
Proof.
  intros l c W G Hc (x0 & Hx0). unfold axis_range. apply rmax_max.
  - intros E. destruct l as [t n_in n_out K tap w b|n h w b]; [|cbn in E; discriminate].
    destruct Hx0 as (i & k & (Hi & Hk) & _).
    assert (Ho : (0 < other_size (LLin t n_in n_out K tap w b) (output_axis (LLin t n_in n_out K tap w b)))%nat).
    { destruct t as [|g|g]; cbn [other_size output_axis negb wsize]; [lia| |lia]. destruct W as (a & d & Hg & Ha & Hd & -> & ->). rewrite div_mul_l by lia. lia. }
    assert (Hin : In (Rabs (entry (LLin t n_in n_out K tap w b) (output_axis (LLin t n_in n_out K tap w b)) c 0 0)) []); [|destruct Hin].
    rewrite <- E. apply in_entries. exists 0%nat, 0%nat. split; [split; [exact Ho|cbn [n_taps]; lia]|reflexivity].
  - intros x Hx. apply in_entries in Hx. destruct Hx as (j & k & (Hj & Hk) & ->). split; [apply Rabs_pos|].
    destruct l as [t n_in n_out K tap w b|n h w b]; [|reflexivity]. cbn [to_mod touches_out]. cbn [n_outputs] in Hc.
    destruct t as [|g|g]; cbn [other_size output_axis negb wsize n_taps entry] in *; cbn [dense].
    + exists j, k. auto.
    + destruct W as (a & d & Hg & Ha & Hd & -> & ->). rewrite div_mul_l in Hj by lia. rewrite !div_mul_l by lia.
      exists (c / d * a + j)%nat, k. assert (c / d < g)%nat by (apply Nat.div_lt_upper_bound; lia). split; [split; [nia|exact Hk]|].
      replace ((c / d * a + j) / a)%nat with (c / d)%nat by (rewrite Nat.div_add_l, (Nat.div_small j a) by lia; lia). rewrite Nat.eqb_refl.
      replace ((c / d * a + j) mod a)%nat with j; [reflexivity|]. rewrite Nat.add_comm, Nat.mod_add by lia. symmetry. apply Nat.mod_small. exact Hj.
    + cbn [good_source] in G. subst g. exists j, k. split; [auto|]. rewrite !Nat.div_1_r, (Nat.div_small j n_in), (Nat.div_small c n_out), Nat.mod_small by lia. reflexivity.
  - intros x Hx. destruct l as [t n_in n_out K tap w b|n h w b].
    2:{ right. cbn [to_mod touches_out] in Hx. subst x. left. reflexivity. }
    cbn [to_mod touches_out] in Hx. destruct Hx as (i & k & (Hi & Hk) & ->).
    destruct t as [|g|g]; cbn [dense] in *.
    + right. apply in_entries. exists i, k. auto.
    + destruct W as (a & d & Hg & Ha & Hd & -> & ->). rewrite !div_mul_l by lia. destruct (_ =? _)%nat; [|left; apply Rabs_R0].
      right. apply in_entries. exists (i mod a)%nat, k. split; [|reflexivity]. cbn [other_size output_axis negb wsize n_taps]. rewrite div_mul_l by lia. split; [apply Nat.mod_upper_bound; lia|exact Hk].
    + cbn [good_source n_outputs] in *. subst g. rewrite !Nat.div_1_r. destruct (_ =? _)%nat; [|left; apply Rabs_R0]. rewrite Nat.mod_small by exact Hc.
      right. apply in_entries. exists i, k. auto.
Qed.
(** The same of the sink range and the weights reading the channel. *)
Theorem C84_sink_range : forall l ax c, wf_layer l -> good_sink l -> input_axis l = Some ax -> (c < n_inputs l)%nat -> (exists x, touches_in (to_mod l) c x) ->
  max_of (touches_in (to_mod l) c) (axis_range l ax c).
Proof.
  intros l ax c W G A Hc (x0 & Hx0). unfold axis_range.
  destruct l as [t n_in n_out K tap w b|n h w b].
  2:{ injection A as <-. cbn. rewrite Rmax_left by (pose proof (Rabs_pos (w c)); lra). split; [reflexivity|]. intros x ->. lra. }
  cbn [n_inputs] in Hc. cbn [to_mod touches_in] in Hx0. destruct Hx0 as (o0 & k0 & (Ho0 & Hk0) & _).
  (* the entries, layout by layout *)
  assert (L : exists J (e : nat -> nat -> R), (0 < J)%nat /\ other_size (LLin t n_in n_out K tap w b) ax = J
            /\ (forall j k, entry (LLin t n_in n_out K tap w b) ax c j k = e j k)
            /\ (forall j k, (j < J)%nat -> exists o, (o < n_out)%nat /\ dense t n_in n_out w o c k = e j k)
            /\ (forall o k, (o < n_out)%nat -> dense t n_in n_out w o c k = 0 \/ exists j, (j < J)%nat /\ dense t n_in n_out w o c k = e j k)).
  { destruct t as [|g|g]; cbn [wf_layer good_sink input_axis] in *.
    - injection A as <-. exists n_out, (fun j k => w j c k). cbn [other_size negb wsize entry dense]. split; [lia|]. split; [reflexivity|]. split; [reflexivity|].
      split; [intros j k Hj; exists j; auto|intros o k Ho; right; exists o; auto].
    - destruct (Nat.eqb_spec g 1) as [->|G1].
      + injection A as <-. exists n_out, (fun j k => w j c k). cbn [other_size negb wsize entry dense]. split; [lia|]. split; [reflexivity|]. split; [reflexivity|].
        assert (E : forall o k, (o < n_out)%nat -> (if (c / (n_in / 1) =? o / (n_out / 1))%nat then w o (c mod (n_in / 1))%nat k else 0) = w o c k).
        { intros o k Ho. rewrite !Nat.div_1_r, (Nat.div_small c n_in), (Nat.div_small o n_out), Nat.mod_small by lia. reflexivity. }
        split; [intros j k Hj; exists j; auto|intros o k Ho; right; exists o; auto].
      + destruct (Nat.eqb_spec g n_out) as [->|G2]; [|discriminate]. injection A as <-.
        assert (n_in = n_out) by (destruct G as [G|[G|G]]; [lia|congruence|exact G]). subst n_in.
        exists 1%nat, (fun j k => w c j k). cbn [other_size negb wsize entry dense]. rewrite Nat.div_same by lia. split; [lia|]. split; [reflexivity|]. split; [reflexivity|].
        assert (E : forall o k, (if (c / 1 =? o / 1)%nat then w o (c mod 1)%nat k else 0) = if (c =? o)%nat then w o 0%nat k else 0) by (intros o k; rewrite !Nat.div_1_r, Nat.mod_1_r; reflexivity).
        split.
        * intros j k Hj. exists c. split; [exact Hc|]. rewrite E, Nat.eqb_refl. assert (j = 0)%nat by lia. subst j. reflexivity.
        * intros o k Ho. rewrite E. destruct (Nat.eqb_spec c o) as [<-|]; [|left; reflexivity]. right. exists 0%nat. split; [lia|reflexivity].
    - destruct (Nat.eqb_spec g 1) as [->|G1].
      + injection A as <-. exists n_out, (fun j k => w c j k). cbn [other_size negb wsize entry dense]. rewrite Nat.div_1_r. split; [lia|]. split; [reflexivity|]. split; [reflexivity|].
        assert (E : forall o k, (o < n_out)%nat -> (if (c / (n_in / 1) =? o / n_out)%nat then w c (o mod n_out)%nat k else 0) = w c o k).
        { intros o k Ho. rewrite !Nat.div_1_r, (Nat.div_small c n_in), (Nat.div_small o n_out), Nat.mod_small by lia. reflexivity. }
        split; [intros j k Hj; exists j; auto|intros o k Ho; right; exists o; auto].
      + destruct (Nat.eqb_spec g n_out) as [->|G2]; [|discriminate]. destruct G; congruence. }
  destruct L as (J & e & HJ & EJ & Ee & L1 & L2).
  apply rmax_max.
  - intros E. assert (Hin : In (Rabs (entry (LLin t n_in n_out K tap w b) ax c 0 0)) []); [|destruct Hin].
    rewrite <- E. apply in_entries. exists 0%nat, 0%nat. split; [rewrite EJ; split; [exact HJ|cbn [n_taps]; lia]|reflexivity].
  - intros x Hx. apply in_entries in Hx. rewrite EJ in Hx. destruct Hx as (j & k & (Hj & Hk) & ->). split; [apply Rabs_pos|].
    cbn [to_mod touches_in]. destruct (L1 j k Hj) as (o & Ho & E). exists o, k. split; [auto|]. rewrite E, Ee. reflexivity.
  - intros x Hx. cbn [to_mod touches_in] in Hx. destruct Hx as (o & k & (Ho & Hk) & ->).
    destruct (L2 o k Ho) as [->|(j & Hj & ->)]; [left; apply Rabs_R0|]. right. apply in_entries. rewrite EJ. exists j, k. split; [auto|]. rewrite Ee. reflexivity.
Qed.

(** ** Balance *)
Definition srcs_touch (L : layers) (ms : list nat) (c : nat) (x : R) : Prop := exists m, In m ms /\ touches_out (to_mod (L m)) c x.
Definition sinks_touch (L : layers) (ms : list nat) (c : nat) (x : R) : Prop := exists m, In m ms /\ touches_in (to_mod (L m)) c x.
Lemma same_out m m' c : same m m' -> (c < match m with Lin _ n_out _ _ _ _ => n_out | Norm n _ _ _ => n end)%nat -> forall x, touches_out m c x <-> touches_out m' c x.
Proof.
  destruct m as [n_in n_out K tap w b|n h w b], m' as [n_in' n_out' K' tap' w' b'|n' h' w' b']; cbn [same]; try discriminate; [|intros E; injection E as -> -> -> ->; tauto].
  intros (<- & <- & <- & _ & Hw & _) Hc x. cbn [touches_out]. split; intros (i & k & (Hi & Hk) & ->); exists i, k; (split; [auto|]); rewrite (Hw c i k Hc Hi); reflexivity.
Qed.
Lemma same_in m m' c : same m m' -> (c < match m with Lin n_in _ _ _ _ _ => n_in | Norm n _ _ _ => n end)%nat -> forall x, touches_in m c x <-> touches_in m' c x.
Proof.
  destruct m as [n_in n_out K tap w b|n h w b], m' as [n_in' n_out' K' tap' w' b'|n' h' w' b']; cbn [same]; try discriminate; [|intros E; injection E as -> -> -> ->; tauto].
  intros (<- & <- & <- & _ & Hw & _) Hc x. cbn [touches_in]. split; intros (o & k & (Ho & Hk) & ->); exists o, k; (split; [auto|]); rewrite (Hw o c k Ho Hc); reflexivity.
Qed.
Lemma touch_src s m c : 0 < s c -> forall x, touches_out (scale_src s m) c x <-> exists y, touches_out m c y /\ x = y * / s c.
Proof.
  intros Hs x. assert (P : forall a, Rabs (a * / s c) = Rabs a * / s c).
  { intros a. rewrite Rabs_mult. f_equal. apply Rabs_pos_eq. left. apply Rinv_0_lt_compat. exact Hs. }
  destruct m as [n_in n_out K tap w b|n h w b]; cbn [scale_src touches_out].
  - split; [intros (i & k & H & ->); exists (Rabs (w c i k)); split; [exists i, k; auto|apply P]|intros (y & (i & k & H & ->) & ->); exists i, k; split; [exact H|symmetry; apply P]].
  - split; [intros ->; exists (Rabs (w c)); split; [reflexivity|apply P]|intros (y & -> & ->); symmetry; apply P].
Qed.
Lemma touch_sink s m c : 0 < s c -> forall x, touches_in (scale_sink s m) c x <-> exists y, touches_in m c y /\ x = y * s c.
Proof.
  intros Hs x. assert (P : forall a, Rabs (a * s c) = Rabs a * s c) by (intros a; rewrite Rabs_mult; f_equal; apply Rabs_pos_eq; lra).
  destruct m as [n_in n_out K tap w b|n h w b]; cbn [scale_sink touches_in].
  - split; [intros (i & k & H & ->); exists (Rabs (w i c k)); split; [exists i, k; auto|apply P]|intros (y & (i & k & H & ->) & ->); exists i, k; split; [exact H|symmetry; apply P]].
  - split; [intros ->; exists (Rabs (w c)); split; [reflexivity|apply P]|intros (y & -> & ->); symmetry; apply P].
Qed.
Lemma mod_out l : n_outputs l = match to_mod l with Lin _ n_out _ _ _ _ => n_out | Norm n _ _ _ => n end.
Proof. destruct l; reflexivity. Qed.
Lemma mod_in l : n_inputs l = match to_mod l with Lin n_in _ _ _ _ _ => n_in | Norm n _ _ _ => n end.
Proof. destruct l; reflexivity. Qed.
Lemma touches_out_nonneg m c x : touches_out m c x -> 0 <= x.
Proof. destruct m; cbn; [intros (i & k & _ & ->)|intros ->]; apply Rabs_pos. Qed.
Lemma touches_in_nonneg m c x : touches_in m c x -> 0 <= x.
Proof. destruct m; cbn; [intros (i & k & _ & ->)|intros ->]; apply Rabs_pos. Qed.
Lemma nmax_const ms (f : nat -> nat) n : ms <> [] -> (forall m, In m ms -> f m = n) -> nmax (map f ms) = n.
Proof.
  induction ms as [|a ms IH]; [congruence|]. intros _ H. cbn [map nmax fold_right]. rewrite (H a (or_introl eq_refl)).
  destruct ms as [|b ms]; [cbn; lia|]. unfold nmax in IH. rewrite IH; [lia|discriminate|intros; apply H; right; assumption].
Qed.
Lemma range_over_max L ms size ax c n (T : nat -> R -> Prop) : ms <> [] -> (forall m, In m ms -> size (L m) = n) -> (c < n)%nat ->
  (forall m x, T m x -> 0 <= x) -> (forall m, In m ms -> max_of (T m) (axis_range (L m) (ax (L m)) c)) ->
  max_of (fun x => exists m, In m ms /\ T m x) (range_over L ms size ax c).
Proof.
  intros Ne Sz Hc Pos Mx. unfold range_over.
  assert (F : filter (fun m => (c <? size (L m))%nat) ms = ms).
  { clear Ne Mx. induction ms as [|a ms IH]; [reflexivity|]. cbn [filter]. rewrite (Sz a (or_introl eq_refl)). destruct (Nat.ltb_spec c n); [|lia]. f_equal. apply IH. intros; apply Sz; right; assumption. }
  rewrite F. assert (Pm : forall x, In x (map (fun m => axis_range (L m) (ax (L m)) c) ms) -> 0 <= x /\ exists m, In m ms /\ T m x).
  { intros x Hx. apply in_map_iff in Hx. destruct Hx as (m & <- & Hm). destruct (Mx m Hm) as (A & _). split; [exact (Pos m _ A)|exists m; auto]. }
  split.
  - apply Pm. apply rmax_in; [destruct ms; [congruence|discriminate]|]. intros x Hx. apply Pm. exact Hx.
  - intros x (m & Hm & Tm). eapply Rle_trans; [apply (proj2 (Mx m Hm)); exact Tm|]. apply rmax_ge. apply in_map_iff. exists m. auto.
Qed.
(** With alpha = 1/2 and channels that are not negligible, equalizing a region leaves the largest
    weight magnitude writing channel [c] over all sources equal to the largest one reading it over
    all sinks: the geometric mean of what they were. *)
Theorem C84_ranges_balanced : forall st L L' n c r1 r2,
  (forall m, In m (srcs st) -> wf_layer (L m) /\ good_source (L m) /\ n_outputs (L m) = n /\ exists x, touches_out (to_mod (L m)) c x) ->
  (forall m, In m (sinks st) -> wf_layer (L m) /\ good_sink (L m) /\ n_inputs (L m) = n /\ input_axis (L m) <> None
                                /\ is_norm (to_mod (L m)) = false /\ exists x, touches_in (to_mod (L m)) c x) ->
  srcs st <> [] -> sinks st <> [] -> (forall m, In m (srcs st) -> ~ In m (sinks st)) -> (c < n)%nat ->
  max_of (srcs_touch L (srcs st) c) r1 -> max_of (sinks_touch L (sinks st) c) r2 -> EPSILON < r1 -> EPSILON < r2 ->
  cross_layer (/ 2) st L = Some L' ->
  max_of (srcs_touch L' (srcs st) c) (sqrt (r1 * r2)) /\ max_of (sinks_touch L' (sinks st) c) (sqrt (r1 * r2)).
Proof.
  intros st L L' n c r1 r2 Hs Hk Ns Nk Dj Hc M1 M2 P1 P2 E.
  assert (Z1 : forall m, In m (srcs st) -> source_size (L m) = n) by (intros m Hm; destruct (Hs m Hm) as (W & G & O & _); rewrite <- O; apply C84_source_size; assumption).
  assert (Z2 : forall m, In m (sinks st) -> sink_size (L m) = n) by (intros m Hm; destruct (Hk m Hm) as (W & G & O & A & _); rewrite <- O; apply C84_sink_size; assumption).
  unfold cross_layer in E. rewrite (nmax_const (srcs st) _ n Ns Z1), (nmax_const (sinks st) _ n Nk Z2), Nat.eqb_refl in E. cbn [negb] in E.
  match type of E with (if existsb ?f ?l then _ else _) = _ => destruct (existsb f l) eqn:Ex end.
  { exfalso. apply existsb_exists in Ex. destruct Ex as (m & Hm & Em). destruct (Hk m Hm) as (_ & _ & _ & A & _). destruct (input_axis (L m)); [discriminate|congruence]. }
  assert (F : layout_factors (/ 2) L st c = scaling_factor (/ 2) r1 r2).
  { unfold layout_factors. f_equal.
    - refine (max_unique _ _ _ (range_over_max L (srcs st) source_size output_axis c n (fun m => touches_out (to_mod (L m)) c) Ns Z1 Hc _ _) M1).
      + intros m x. apply touches_out_nonneg.
      + intros m Hm. destruct (Hs m Hm) as (W & G & O & Nx). apply C84_source_range; [exact W|exact G|lia|exact Nx].
    - refine (max_unique _ _ _ (range_over_max L (sinks st) sink_size some_axis c n (fun m => touches_in (to_mod (L m)) c) Nk Z2 Hc _ _) M2).
      + intros m x. apply touches_in_nonneg.
      + intros m Hm. destruct (Hk m Hm) as (W & G & O & A & _ & Nx). unfold some_axis. destruct (input_axis (L m)) as [ax|] eqn:Eax; [|congruence].
        apply C84_sink_range; [exact W|exact G|exact Eax|lia|exact Nx]. }
  destruct (C37_ranges_equal r1 r2 P1 P2) as (B1 & B2). rewrite <- F in B1, B2.
  set (s := layout_factors (/ 2) L st) in *. assert (Sp : forall j, 0 < s j) by (intros j; apply C37_factor_positive). clearbody s.
  match type of E with (if ?b then _ else _) = _ => destruct b; [|discriminate] end. injection E as <-.
  split.
  - assert (Tm : forall m x, In m (srcs st) -> touches_out (to_mod ((fun m =>
        let l1 := if mem m (srcs st) then match update_source s (L m) with Some l => l | None => L m end else L m in
        if mem m (sinks st) then update_sink (some_axis l1) s l1 else l1) m)) c x <-> exists y, touches_out (to_mod (L m)) c y /\ x = y * / s c).
    { intros m x Hm. cbn beta zeta. rewrite (proj2 (mem_in m (srcs st)) Hm). destruct (mem m (sinks st)) eqn:Sk; [apply mem_in in Sk; destruct (Dj m Hm Sk)|].
      destruct (Hs m Hm) as (W & G & O & _). destruct (source_same (L m) s W G) as (l' & -> & Sm).
      rewrite (same_out _ _ c Sm); [apply touch_src; apply Sp|]. rewrite <- mod_out.
      assert (n_outputs l' = n_outputs (L m)) by (rewrite !mod_out; clear - Sm; destruct (to_mod l'), (to_mod (L m)); cbn [same scale_src] in Sm; try discriminate; [destruct Sm as (_ & Sm & _); exact Sm|injection Sm as -> _ _; reflexivity]).
      lia. }
    destruct M1 as ((m & Hm & Tx) & Mx). split.
    + exists m. split; [exact Hm|]. apply Tm; [exact Hm|]. exists r1. split; [exact Tx|symmetry; exact B1].
    + intros x (m' & Hm' & Tx'). apply Tm in Tx'; [|exact Hm']. destruct Tx' as (y & Ty & ->). rewrite <- B1. apply Rmult_le_compat_r; [left; apply Rinv_0_lt_compat, Sp|]. apply Mx. exists m'. auto.
  - assert (Tm : forall m x, In m (sinks st) -> touches_in (to_mod ((fun m =>
        let l1 := if mem m (srcs st) then match update_source s (L m) with Some l => l | None => L m end else L m in
        if mem m (sinks st) then update_sink (some_axis l1) s l1 else l1) m)) c x <-> exists y, touches_in (to_mod (L m)) c y /\ x = y * s c).
    { intros m x Hm. cbn beta zeta. rewrite (proj2 (mem_in m (sinks st)) Hm). destruct (mem m (srcs st)) eqn:Sk; [apply mem_in in Sk; destruct (Dj m Sk Hm)|].
      destruct (Hk m Hm) as (W & G & O & A & N & _). unfold some_axis. destruct (input_axis (L m)) as [ax|] eqn:Eax; [|congruence].
      pose proof (sink_same (L m) ax s W G Eax N) as Sm.
      rewrite (same_in _ _ c Sm); [apply touch_sink; apply Sp|]. rewrite <- mod_in.
      assert (n_inputs (update_sink ax s (L m)) = n_inputs (L m)) by (destruct (L m); reflexivity). lia. }
    destruct M2 as ((m & Hm & Tx) & Mx). split.
    + exists m. split; [exact Hm|]. apply Tm; [exact Hm|]. exists r2. split; [exact Tx|symmetry; exact B2].
    + intros x (m' & Hm' & Tx'). apply Tm in Tx'; [|exact Hm']. destruct Tx' as (y & Ty & ->). rewrite <- B2. apply Rmult_le_compat_r; [left; apply Sp|]. apply Mx. exists m'. auto.
Qed.

(** Example: a 2-group convolution (weights 4 in both output channels) feeding a linear layer with
    weights 1: both ranges become 2. *)
Definition bal_layers (m : nat) : layer :=
  if (m =? 10)%nat then LLin (TConv 2) 2 2 1 idtap (fun _ _ _ => 4) None else LLin TLinear 2 3 1 idtap (fun _ _ _ => 1) None.
Definition bal_st : wstate := W [10%nat] [11%nat] [] false.
Example C84_balance_example : exists L', cross_layer (/ 2) bal_st bal_layers = Some L'
  /\ max_of (srcs_touch L' [10%nat] 1) 2 /\ max_of (sinks_touch L' [11%nat] 1) 2.
Proof.
  assert (S2 : 2 = sqrt (4 * 1)) by (rewrite Rmult_1_r; symmetry; replace 4 with (2 * 2) by lra; apply sqrt_square; lra).
  assert (X : exists L', cross_layer (/ 2) bal_st bal_layers = Some L') by (eexists; reflexivity). destruct X as (L' & E). exists L'. split; [exact E|]. rewrite S2.
  apply (C84_ranges_balanced bal_st bal_layers L' 2 1 4 1); try exact E; try discriminate; try lia.
  - intros m [<-|[]]. split; [exists 1%nat, 1%nat; cbn; lia|]. split; [exact I|]. split; [reflexivity|]. exists 4, 1%nat, 0%nat. split; [lia|]. cbn. symmetry. apply Rabs_pos_eq. lra.
  - intros m [<-|[]]. split; [exact I|]. split; [exact I|]. split; [reflexivity|]. split; [discriminate|]. split; [reflexivity|].
    exists 1, 0%nat, 0%nat. split; [lia|]. cbn. symmetry. apply Rabs_pos_eq. lra.
  - intros m [<-|[]] [H|[]]. discriminate.
  - split; [exists 10%nat; split; [left; reflexivity|]; exists 1%nat, 0%nat; split; [lia|]; cbn; symmetry; apply Rabs_pos_eq; lra|].
    intros x (m & [<-|[]] & i & k & (Hi & Hk) & ->). cbn. destruct (_ =? _)%nat; [rewrite Rabs_pos_eq; lra|rewrite Rabs_R0; lra].
  - split; [exists 11%nat; split; [left; reflexivity|]; exists 0%nat, 0%nat; split; [lia|]; cbn; symmetry; apply Rabs_pos_eq; lra|].
    intros x (m & [<-|[]] & i & k & (Hi & Hk) & ->). cbn. rewrite Rabs_pos_eq; lra.
  - unfold EPSILON. lra.
  - unfold EPSILON. lra.
Qed.

(** ** C85: calibration *)
(** Layerwise equalization raises exactly for layers that never ran during calibration. *)
Theorem C85_never_ran_raises : forall alpha P n_feat l bs, layerwise alpha P n_feat (calibrate bs) l = None <-> bs = [].
Proof.
  intros alpha P n_feat l bs. split; [|intros ->; reflexivity]. intros H. destruct bs as [|b bs]; [reflexivity|exfalso].
  assert (C : forall bs m, fold_left record_maxabs bs (Some m) <> None) by (clear; induction bs as [|b bs IH]; intros m; [discriminate|apply IH]).
  unfold calibrate in H. cbn [fold_left] in H. change (record_maxabs None b) with (Some (batch_maxabs b)) in H. specialize (C bs (batch_maxabs b)).
  revert H C. destruct (fold_left record_maxabs bs (Some (batch_maxabs b))) as [v|]; [|congruence]; intros H _. unfold layerwise in H.
  destruct (input_axis l); [|discriminate]. destruct (negb _); discriminate.
Qed.
(** The 'range' statistic of a position over a batch: the spread between the largest and the
    smallest sample, or the magnitude when all samples agree. *)
Theorem C85_range_of_batch : forall x xs c p,
  ((forall y, In y xs -> y c p = x c p) -> batch_range (x, xs) c p = Rabs (x c p))
  /\ (forall hi lo, (exists y, In y (x :: xs) /\ y c p = hi) -> (exists y, In y (x :: xs) /\ y c p = lo) ->
      (forall y, In y (x :: xs) -> lo <= y c p <= hi) -> lo < hi -> batch_range (x, xs) c p = hi - lo).
Proof.
  intros x xs c p.
  assert (Hi : forall l, let h := fold_right (fun y m => Rmax (y c p) m) (x c p) l in (exists y, In y (x :: l) /\ y c p = h) /\ forall y, In y (x :: l) -> y c p <= h).
  { induction l as [|a l IH]; [cbn; split; [exists x; auto|intros y [->|[]]; lra]|]. cbn [fold_right]. destruct IH as ((z & Hz & Ez) & B).
    set (h := fold_right (fun y m => Rmax (y c p) m) (x c p) l) in *. split.
    - unfold Rmax. destruct (Rle_dec (a c p) h); [exists z; split; [destruct Hz as [->|Hz]; [left; reflexivity|right; right; exact Hz]|exact Ez]|exists a; split; [right; left; reflexivity|reflexivity]].
    - intros y [->|[->|Hy]]; [eapply Rle_trans; [apply B; left; reflexivity|apply Rmax_r]|apply Rmax_l|eapply Rle_trans; [apply B; right; exact Hy|apply Rmax_r]]. }
  assert (Lo : forall l, let h := fold_right (fun y m => Rmin (y c p) m) (x c p) l in (exists y, In y (x :: l) /\ y c p = h) /\ forall y, In y (x :: l) -> h <= y c p).
  { induction l as [|a l IH]; [cbn; split; [exists x; auto|intros y [->|[]]; lra]|]. cbn [fold_right]. destruct IH as ((z & Hz & Ez) & B).
    set (h := fold_right (fun y m => Rmin (y c p) m) (x c p) l) in *. split.
    - unfold Rmin. destruct (Rle_dec (a c p) h); [exists a; split; [right; left; reflexivity|reflexivity]|exists z; split; [destruct Hz as [->|Hz]; [left; reflexivity|right; right; exact Hz]|exact Ez]].
    - intros y [->|[->|Hy]]; [eapply Rle_trans; [apply Rmin_r|apply B; left; reflexivity]|apply Rmin_l|eapply Rle_trans; [apply Rmin_r|apply B; right; exact Hy]]. }
  destruct (Hi xs) as ((yh & Hyh & Eh) & Bh). destruct (Lo xs) as ((yl & Hyl & El) & Bl). cbv zeta in *.
  unfold batch_range. cbn [fst snd]. set (h := fold_right (fun y m => Rmax (y c p) m) (x c p) xs) in *. set (l := fold_right (fun y m => Rmin (y c p) m) (x c p) xs) in *.
  clearbody h l. split.
  - intros All. assert (All' : forall y, In y (x :: xs) -> y c p = x c p) by (intros y [->|Hy]; [reflexivity|apply All; exact Hy]).
    rewrite (All' yh Hyh) in Eh. rewrite (All' yl Hyl) in El. subst h l. replace (x c p - x c p) with 0 by ring.
    destruct (Req_EM_T 0 0) as [_|N]; [|congruence]. f_equal. unfold vsum_of.
    assert (Sm : Rsum (map (fun y => y c p) (x :: xs)) = INR (length (x :: xs)) * x c p).
    { clear - All'. induction (x :: xs) as [|a l IH]; [cbn; ring|]. cbn [map Rsum]. rewrite IH by (intros; apply All'; right; assumption). rewrite (All' a (or_introl eq_refl)).
      change (length (a :: l)) with (S (length l)). rewrite S_INR. ring. }
    transitivity (INR (length (x :: xs)) * x c p / INR (length (x :: xs))); [f_equal; exact Sm|]. generalize (not_0_INR (length (x :: xs))). intros Nz. field. apply Nz. discriminate.
  - intros hi lo (y1 & H1 & E1) (y2 & H2 & E2) B Lt.
    assert (h = hi) by (apply Rle_antisym; [rewrite <- Eh; apply B; exact Hyh|rewrite <- E1; apply Bh; exact H1]).
    assert (l = lo) by (apply Rle_antisym; [rewrite <- E2; apply Bl; exact H2|rewrite <- El; apply B; exact Hyl]). subst h l.
    rewrite H, H0. destruct (Req_EM_T (hi - lo) 0); [lra|]. apply Rabs_pos_eq. lra.
Qed.
Example C85_range_example : batch_range ((fun _ _ => 3), [(fun _ _ => -1); (fun _ _ => 2)]) 0%nat 0%nat = 4.
Proof.
  destruct (C85_range_of_batch (fun _ _ => 3) [(fun _ _ => -1); (fun _ _ => 2)] 0 0) as (_ & H). rewrite (H 3 (-1)); [lra|..].
  - exists (fun _ _ => 3). split; [left; reflexivity|reflexivity].
  - exists (fun _ _ => -1). split; [right; left; reflexivity|reflexivity].
  - intros y [<-|[<-|[<-|[]]]]; lra.
  - lra.
Qed.

Print Assumptions C84_source_range.
Print Assumptions C84_sink_range.
Print Assumptions C84_ranges_balanced.
Print Assumptions C85_never_ran_raises.
Print Assumptions C85_range_of_batch.
