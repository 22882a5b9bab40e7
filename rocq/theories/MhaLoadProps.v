(** C91: QuantMultiheadAttention loads checkpoints of torch's layer. *)
From Coq Require Import List Bool String Arith Reals Lra Lia.
From Verif Require Import StateDict Mha StateDictProps MhaProofs MhaProps.
Import ListNotations.
Open Scope string_scope.

Section Load.
Context {Row : Type}.
Notation tensor := (list Row).

(** ** Specification: where each tensor of the checkpoint goes *)
Definition sources : list string := ["in_proj_weight"; "q_proj_weight"; "k_proj_weight"; "v_proj_weight"; "in_proj_bias"].
Definition third (j : nat) (v : tensor) : tensor := firstn (List.length v / 3) (skipn (List.length v / 3 * j) v).
Definition whole (v : tensor) : tensor := v.
Definition routes (packed : bool) : list (string * string * (tensor -> tensor)) :=
  (if packed then [("in_proj_weight", "in_proj.weight", whole); ("in_proj_bias", "in_proj.bias", whole)]
   else [("in_proj_weight", "q_proj.weight", third 0); ("in_proj_weight", "k_proj.weight", third 1); ("in_proj_weight", "v_proj.weight", third 2);
         ("in_proj_bias", "q_proj.bias", third 0); ("in_proj_bias", "k_proj.bias", third 1); ("in_proj_bias", "v_proj.bias", third 2)])
  ++ [("q_proj_weight", "q_proj.weight", whole); ("k_proj_weight", "k_proj.weight", whole); ("v_proj_weight", "v_proj.weight", whole)].
(** No other name contains one of the layer's float names. *)
Definition clean (prefix : string) (d : dict tensor) : Prop :=
  forall name src, In name (keys d) -> In src sources -> contains (prefix ++ src) name = true -> name = prefix ++ src.
(** torch's layer holds either one packed weight or three, with sizes that are multiples of three. *)
Definition float_checkpoint (prefix : string) (d : dict tensor) : Prop :=
  (get d (prefix ++ "in_proj_weight") = None \/ (get d (prefix ++ "q_proj_weight") = None /\ get d (prefix ++ "k_proj_weight") = None /\ get d (prefix ++ "v_proj_weight") = None))
  /\ forall src v, src = "in_proj_weight" \/ src = "in_proj_bias" -> get d (prefix ++ src) = Some v -> (List.length v mod 3 = 0)%nat.

(** ** Proofs *)
Lemma get_set (d : dict tensor) a v b : get (set d a v) b = if String.eqb a b then Some v else get d b.
Proof.
  induction d as [|[c u] d IH]; cbn [set get]; [reflexivity|]. destruct (String.eqb_spec c a) as [->|N]; cbn [get].
  - destruct (String.eqb a b); reflexivity.
  - rewrite IH. destruct (String.eqb_spec c b) as [->|N2]; [|reflexivity]. destruct (String.eqb_spec a b); [congruence|reflexivity].
Qed.
Lemma get_without (d : dict tensor) a b : get (without d a) b = if String.eqb a b then None else get d b.
Proof.
  unfold without. induction d as [|[c u] d IH]; cbn [filter get fst]; [destruct (String.eqb a b); reflexivity|]. destruct (String.eqb_spec c a) as [->|N]; cbn [negb get].
  - rewrite IH. destruct (String.eqb_spec a b); reflexivity.
  - rewrite IH. destruct (String.eqb_spec c b) as [->|N2]; [|reflexivity]. destruct (String.eqb_spec a b); [congruence|reflexivity].
Qed.
Lemma get_pair (d : dict tensor) a v : get d a = Some v -> In (a, v) d.
Proof. induction d as [|[c u] d IH]; cbn [get]; [discriminate|]. destruct (String.eqb_spec c a) as [->|N]; [intros H; injection H as ->; left; reflexivity|right; auto]. Qed.
Lemma pair_get (d : dict tensor) a v : NoDup (keys d) -> In (a, v) d -> get d a = Some v.
Proof.
  induction d as [|[c u] d IH]; cbn [get keys map fst]; intros N H; [destruct H|]. inversion N as [|x l N1 N2]; subst. destruct H as [H|H].
  - injection H as -> ->. rewrite String.eqb_refl. reflexivity.
  - destruct (String.eqb_spec c a) as [->|Ne]; [|apply IH; assumption]. exfalso. apply N1. apply in_map_iff. exists (a, v). split; [reflexivity|exact H].
Qed.
Lemma contains_refl s : contains s s = true.
Proof. destruct s; cbn [contains]; apply orb_true_iff; left; apply startswith_iff; exists ""; rewrite app_nil_s; reflexivity. Qed.

(** What one item writes; [None] is the error. *)
Definition writes (packed : bool) (prefix : string) (name : string) (v : tensor) : list (string * tensor) :=
  flat_map (fun r : string * string * (tensor -> tensor) => let '(src, tgt, f) := r in if String.eqb name (prefix ++ src) then [(prefix ++ tgt, f v)] else []) (routes packed).
Lemma third_chunk v j : (List.length v mod 3 = 0)%nat -> chunk3 v j = third j v.
Proof.
  intros H. unfold chunk3, third. assert (E : ((List.length v + 2) / 3 = List.length v / 3)%nat).
  { pose proof (Nat.div_mod (List.length v) 3 ltac:(lia)) as D. rewrite H, Nat.add_0_r in D. rewrite D at 1. rewrite (Nat.mul_comm 3), Nat.div_add_l by lia. change (2 / 3)%nat with 0%nat. lia. }
  rewrite E. reflexivity.
Qed.
Definition set_all (ws : list (string * tensor)) (d : dict tensor) : dict tensor := fold_left (fun d w => set d (fst w) (snd w)) ws d.
Lemma eqb_app p a b : String.eqb (p ++ a) (p ++ b) = String.eqb a b.
Proof. destruct (String.eqb_spec a b) as [->|N]; [apply String.eqb_refl|]. apply String.eqb_neq. intros H. apply N. exact (app_inj_l _ _ _ H). Qed.

Lemma step packed prefix name v items d : (forall src, In src sources -> contains (prefix ++ src) name = true -> name = prefix ++ src) ->
  ((name = prefix ++ "in_proj_weight" \/ name = prefix ++ "in_proj_bias") -> (List.length v mod 3 = 0)%nat) ->
  load_items packed prefix ((name, v) :: items) d
  = load_items packed prefix items (if existsb (fun src => String.eqb name (prefix ++ src)) sources then without (set_all (writes packed prefix name v) d) name else d).
Proof.
  intros C M. cbn [load_items].
  assert (H : forall src, In src sources -> contains (prefix ++ src) name = String.eqb name (prefix ++ src)).
  { intros src Hs. destruct (String.eqb_spec name (prefix ++ src)) as [->|N]; [apply contains_refl|]. destruct (contains (prefix ++ src) name) eqn:E; [|reflexivity]. exfalso. apply N. apply C; assumption. }
  rewrite !H by (cbn; tauto). unfold sources. cbn [existsb].
  destruct (String.eqb_spec name (prefix ++ "in_proj_weight")) as [->|N1].
  { cbn [orb]. unfold writes, routes, set3. rewrite !third_chunk by (apply M; left; reflexivity). rewrite (M (or_introl eq_refl)). destruct packed; cbn [flat_map app]; rewrite !eqb_app; reflexivity. }
  destruct (String.eqb_spec name (prefix ++ "q_proj_weight")) as [->|N2]. { cbn [orb]. unfold writes, routes. destruct packed; cbn [flat_map app]; rewrite !eqb_app; reflexivity. }
  destruct (String.eqb_spec name (prefix ++ "k_proj_weight")) as [->|N3]. { cbn [orb]. unfold writes, routes. destruct packed; cbn [flat_map app]; rewrite !eqb_app; reflexivity. }
  destruct (String.eqb_spec name (prefix ++ "v_proj_weight")) as [->|N4]. { cbn [orb]. unfold writes, routes. destruct packed; cbn [flat_map app]; rewrite !eqb_app; reflexivity. }
  destruct (String.eqb_spec name (prefix ++ "in_proj_bias")) as [->|N5].
  { cbn [orb]. unfold writes, routes, set3. rewrite !third_chunk by (apply M; right; reflexivity). destruct packed; cbn [flat_map app]; rewrite !eqb_app; reflexivity. }
  reflexivity.
Qed.
Lemma set_all_get ws : forall d b, get (set_all ws d) b = match find (fun w => String.eqb (fst w) b) (rev ws) with Some w => Some (snd w) | None => get d b end.
Proof.
  unfold set_all. induction ws as [|[a v] ws IH]; intros d b; [reflexivity|]. cbn [fold_left rev fst snd]. rewrite IH.
  assert (F : forall l l' : list (string * tensor), find (fun w => String.eqb (fst w) b) (l ++ l')%list = match find (fun w => String.eqb (fst w) b) l with Some w => Some w | None => find (fun w => String.eqb (fst w) b) l' end).
  { induction l as [|x l IHl]; intros l'; [reflexivity|]. cbn [app find]. destruct (String.eqb (fst x) b); [reflexivity|apply IHl]. }
  rewrite F. destruct (find _ (rev ws)) as [w|]; [reflexivity|]. cbn [find fst snd]. rewrite get_set. destruct (String.eqb a b); reflexivity.
Qed.
Definition is_source (prefix name : string) : bool := existsb (fun src => String.eqb name (prefix ++ src)) sources.
Definition untouched (packed : bool) (prefix key : string) (items : list (string * tensor)) : Prop :=
  forall name v, In (name, v) items -> is_source prefix name = true -> name <> key /\ ~ In key (map fst (writes packed prefix name v)).
Definition fine (prefix : string) (items : list (string * tensor)) : Prop :=
  forall name v, In (name, v) items -> (forall src, In src sources -> contains (prefix ++ src) name = true -> name = prefix ++ src)
    /\ ((name = prefix ++ "in_proj_weight" \/ name = prefix ++ "in_proj_bias") -> (List.length v mod 3 = 0)%nat).
Lemma find_none_keys (ws : list (string * tensor)) key : ~ In key (map fst ws) -> find (fun w => String.eqb (fst w) key) (rev ws) = None.
Proof.
  intros H. destruct (find _ (rev ws)) as [w|] eqn:E; [|reflexivity]. exfalso. apply find_some in E as [I E]. apply String.eqb_eq in E. subst key. apply H, in_map, in_rev. exact I.
Qed.
Lemma load_frame packed prefix : forall items d, fine prefix items -> exists d', load_items packed prefix items d = Some d'
  /\ forall key, untouched packed prefix key items -> get d' key = get d key.
Proof.
  induction items as [|[name v] items IH]; intros d F; [exists d; split; reflexivity|].
  destruct (F name v (or_introl eq_refl)) as [C M]. rewrite (step packed prefix name v items d C M). fold (is_source prefix name).
  destruct (IH (if is_source prefix name then without (set_all (writes packed prefix name v) d) name else d) (fun n u H => F n u (or_intror H))) as (d' & E & G).
  exists d'. split; [exact E|]. intros key U. rewrite G by (intros n u H; apply U; right; exact H). destruct (is_source prefix name) eqn:S; [|reflexivity].
  destruct (U name v (or_introl eq_refl) S) as [N W]. rewrite get_without. apply String.eqb_neq in N. rewrite N, set_all_get, find_none_keys by exact W. reflexivity.
Qed.
Lemma load_app packed prefix : forall a b (d : dict tensor), load_items packed prefix (a ++ b)%list d = match load_items packed prefix a d with Some d' => load_items packed prefix b d' | None => None end.
Proof.
  induction a as [|[name v] a IH]; intros b d; [reflexivity|]. cbn [app load_items].
  repeat match goal with |- context [if ?c then _ else _] => destruct c; [try apply IH; try reflexivity|] end; apply IH.
Qed.
Lemma tgt_not_source packed prefix src tgt f name : In (src, tgt, f) (routes packed) -> is_source prefix name = true -> name <> prefix ++ tgt.
Proof.
  intros R S ->. unfold is_source, sources in S. cbn [existsb] in S. rewrite !eqb_app in S. unfold routes in R. destruct packed; cbn [app In] in R;
  repeat (destruct R as [R|R]; [injection R as <- <- <-; discriminate S|]); exact R.
Qed.
Lemma writes_get packed prefix src tgt f v d : In (src, tgt, f) (routes packed) -> get (set_all (writes packed prefix (prefix ++ src) v) d) (prefix ++ tgt) = Some (f v).
Proof.
  intros R. rewrite set_all_get. unfold writes. unfold routes in *. destruct packed; cbn [app In] in R;
  repeat (destruct R as [R|R]; [injection R as <- <- <-; cbn [flat_map app]; rewrite !eqb_app; cbn [String.eqb Ascii.eqb Bool.eqb app rev find fst]; rewrite ?eqb_app; reflexivity|]); destruct R.
Qed.
(** Which items write a target. *)
Lemma writers packed prefix name v tgt : In (prefix ++ tgt) (map fst (writes packed prefix name v)) -> exists src f, In (src, tgt, f) (routes packed) /\ name = prefix ++ src.
Proof.
  unfold writes. intros H. apply in_map_iff in H as ([t u] & E & H). apply in_flat_map in H as ([[src tgt'] f] & R & H). destruct (String.eqb_spec name (prefix ++ src)) as [->|N]; [|destruct H].
  destruct H as [H|[]]. injection H as <- <-. cbn [fst] in E. apply app_inj_l in E. subst tgt'. exists src, f. split; [exact R|reflexivity].
Qed.
Lemma other_writer packed src src' tgt f f' : In (src, tgt, f) (routes packed) -> In (src', tgt, f') (routes packed) -> src <> src' ->
  (src = "in_proj_weight" /\ In src' ["q_proj_weight"; "k_proj_weight"; "v_proj_weight"]) \/ (src' = "in_proj_weight" /\ In src ["q_proj_weight"; "k_proj_weight"; "v_proj_weight"]).
Proof.
  unfold routes. destruct packed; cbn [app In]; intros R R' N;
  repeat (destruct R as [R|R]; [injection R as <- <- <-; repeat (destruct R' as [R'|R']; [try discriminate R'; injection R' as <- _; try congruence; cbn; tauto|]); destruct R'|]); destruct R.
Qed.
Lemma in_sources packed src tgt f : In (src, tgt, f) (routes packed) -> In src sources.
Proof. unfold routes, sources. destruct packed; cbn [app In]; intros R; repeat (destruct R as [R|R]; [injection R as <- _ _; tauto|]); destruct R. Qed.
Lemma fine_of prefix d : NoDup (keys d) -> clean prefix d -> float_checkpoint prefix d -> fine prefix d.
Proof.
  intros N C [_ M] name v I. split.
  - intros src Hs. apply C; [apply in_map_iff; exists (name, v); split; [reflexivity|exact I]|exact Hs].
  - intros [->| ->]; [apply (M "in_proj_weight")|apply (M "in_proj_bias")]; try tauto; apply pair_get; assumption.
Qed.
(** ** The loader *)
Theorem C91_load : forall packed prefix d, NoDup (keys d) -> clean prefix d -> float_checkpoint prefix d ->
  exists d', mha_load packed prefix d = Some d'
  /\ (forall src tgt f v, In (src, tgt, f) (routes packed) -> get d (prefix ++ src) = Some v -> get d' (prefix ++ tgt) = Some (f v))
  /\ (forall src, In src sources -> get d' (prefix ++ src) = None)
  /\ (forall key, ~ In key (map (fun src => prefix ++ src) sources) ->
        (forall src tgt f, In (src, tgt, f) (routes packed) -> get d (prefix ++ src) <> None -> key <> prefix ++ tgt) -> get d' key = get d key).
Proof.
  intros packed prefix d N C FC. pose proof (fine_of prefix d N C FC) as F. unfold mha_load.
  destruct (load_frame packed prefix d d F) as (d' & E & G). exists d'. split; [exact E|].
  (* an item [name] splits the loop *)
  assert (Sp : forall name v key, In (name, v) d -> is_source prefix name = true ->
            (forall n u, In (n, u) d -> n <> name -> is_source prefix n = true -> n <> key /\ ~ In key (map fst (writes packed prefix n u))) ->
            exists d1, get d' key = get (without (set_all (writes packed prefix name v) d1) name) key).
  { intros name v key I S U. apply in_split in I as (a & b & Hd). pose proof E as E0. rewrite Hd in E0 at 1. rewrite load_app in E0.
    assert (Fa : fine prefix a) by (intros n u H; apply F; rewrite Hd; apply in_or_app; left; exact H).
    destruct (load_frame packed prefix a d Fa) as (d1 & E1 & _). rewrite E1 in E0. exists d1.
    destruct (F name v ltac:(rewrite Hd; apply in_or_app; right; left; reflexivity)) as [C1 M1]. rewrite (step packed prefix name v b d1 C1 M1) in E0. fold (is_source prefix name) in E0. rewrite S in E0.
    assert (Fb : fine prefix b) by (intros n u H; apply F; rewrite Hd; apply in_or_app; right; right; exact H).
    destruct (load_frame packed prefix b (without (set_all (writes packed prefix name v) d1) name) Fb) as (d2 & E2 & G2). rewrite E2 in E0. injection E0 as <-. apply G2.
    intros n u H Hs. apply (U n u); [rewrite Hd; apply in_or_app; right; right; exact H| |exact Hs].
    intros ->. rewrite Hd in N. unfold keys in N. rewrite map_app in N. cbn [map fst] in N. apply NoDup_remove_2 in N. apply N. apply in_or_app. right. apply in_map_iff. exists (name, u). split; [reflexivity|exact H]. }
  assert (Is : forall src, In src sources -> is_source prefix (prefix ++ src) = true).
  { intros src H. unfold is_source. apply existsb_exists. exists src. split; [exact H|apply String.eqb_refl]. }
  split; [|split].
  - intros src tgt f v R Hg. destruct (Sp (prefix ++ src) v (prefix ++ tgt) (get_pair _ _ _ Hg) (Is src (in_sources _ _ _ _ R))) as [d1 ->].
    + intros n u I Hn Hs. split; [exact (tgt_not_source packed prefix src tgt f n R Hs)|]. intros W. destruct (writers _ _ _ _ _ W) as (src' & f' & R' & ->).
      assert (Ne : src <> src') by (intros ->; apply Hn; reflexivity). pose proof (pair_get d _ _ N I) as Hg'. destruct FC as [[P|(P1 & P2 & P3)] _].
      * destruct (other_writer _ _ _ _ _ _ R R' Ne) as [[-> _]|[-> _]]; congruence.
      * destruct (other_writer _ _ _ _ _ _ R R' Ne) as [[_ K]|[_ K]]; cbn [In] in K; destruct K as [<-|[<-|[<-|[]]]]; congruence.
    + rewrite get_without, eqb_app. assert (X : String.eqb src tgt = false).
      { pose proof (tgt_not_source packed prefix src tgt f (prefix ++ src) R (Is src (in_sources _ _ _ _ R))) as X. rewrite <- (eqb_app prefix). apply String.eqb_neq. exact X. }
      rewrite X. apply writes_get. exact R.
  - intros src Hs. destruct (get d (prefix ++ src)) as [v|] eqn:Hg.
    + destruct (Sp (prefix ++ src) v (prefix ++ src) (get_pair _ _ _ Hg) (Is src Hs)) as [d1 ->].
      * intros n u I Hn Hn'. split; [exact Hn|]. intros W. destruct (writers _ _ _ _ _ W) as (src' & f' & R' & ->).
        exact (tgt_not_source packed prefix src' src f' (prefix ++ src) R' (Is src Hs) eq_refl).
      * rewrite get_without, String.eqb_refl. reflexivity.
    + rewrite G; [exact Hg|]. intros n u I Hn. split; [intros ->; rewrite (pair_get _ _ _ N I) in Hg; discriminate|]. intros W. destruct (writers _ _ _ _ _ W) as (src' & f' & R' & ->).
      exact (tgt_not_source packed prefix src' src f' (prefix ++ src) R' (Is src Hs) eq_refl).
  - intros key Hk Hr. apply G. intros n u I Hn. split.
    + intros ->. apply Hk. unfold is_source in Hn. apply existsb_exists in Hn as (src & Hs & Heq). apply String.eqb_eq in Heq. subst key. apply in_map_iff. exists src. split; [reflexivity|exact Hs].
    + intros W. unfold writes in W. apply in_map_iff in W as ([t u'] & Ek & W). apply in_flat_map in W as ([[src tgt] f] & R & W). destruct (String.eqb_spec n (prefix ++ src)) as [->|Nn]; [|destruct W].
      destruct W as [W|[]]. injection W as <- <-. cbn [fst] in Ek. apply (Hr src tgt f R); [|exact (eq_sym Ek)]. rewrite (pair_get _ _ _ N I). discriminate.
Qed.
(** The layer's own checkpoints are left alone. *)
Theorem C91_own_checkpoint : forall packed prefix (d : dict tensor), (forall name src, In name (keys d) -> In src sources -> contains (prefix ++ src) name = false) -> mha_load packed prefix d = Some d.
Proof.
  intros packed prefix d H. unfold mha_load.
  assert (A : forall items (d0 : dict tensor), (forall name src, In name (keys items) -> In src sources -> contains (prefix ++ src) name = false) -> load_items packed prefix items d0 = Some d0).
  { induction items as [|[name v] items IH]; intros d0 F; [reflexivity|]. cbn [load_items]. rewrite !(F name) by (cbn; tauto). apply IH. intros n src I. apply F. right. exact I. }
  apply A. exact H.
Qed.
(** Sizes that are not a multiple of three raise in an unpacked layer. *)
Theorem C91_uneven_raises : forall prefix v (d : dict tensor), get d (prefix ++ "in_proj_weight") = Some v -> (List.length v mod 3 <> 0)%nat -> mha_load false prefix d = None.
Proof.
  intros prefix v d Hg H. apply get_pair in Hg. apply Nat.eqb_neq in H. unfold mha_load.
  assert (A : forall items (d0 : dict tensor), In (prefix ++ "in_proj_weight", v) items -> load_items false prefix items d0 = None).
  { induction items as [|[name u] items IH]; intros d0 I; [destruct I|]. destruct I as [I|I].
    - injection I as -> ->. cbn [load_items]. rewrite contains_refl, H. reflexivity.
    - cbn [load_items]. repeat match goal with |- context [if ?c then _ else _] => destruct c; [try (apply IH; exact I); try reflexivity|] end; apply IH; exact I. }
  apply A. exact Hg.
Qed.
End Load.

(** ** The loaded layer
    A weight is a list of rows; a bias a list of one-element rows. *)
Open Scope R_scope.
Definition lin_of (E : nat) (w b : list (list R)) : lin := Lin (List.length w) E (fun o k => nth k (nth o w []) 0) (fun o => nth 0 (nth o b []) 0).
Lemma nth_third {Row} j (v : list Row) o x E : (List.length v = 3 * E)%nat -> (j < 3)%nat -> (o < E)%nat -> nth o (third j v) x = nth (E * j + o) v x.
Proof.
  intros L Hj Ho. unfold third. rewrite L. assert (D : (3 * E / 3 = E)%nat) by (rewrite Nat.mul_comm; apply Nat.div_mul; lia). rewrite D.
  rewrite <- (firstn_skipn (E * j) v) at 2. rewrite app_nth2 by (rewrite firstn_length; nia). rewrite firstn_length, L.
  replace (E * j + o - Nat.min (E * j) (3 * E))%nat with o by nia.
  rewrite <- (firstn_skipn E (skipn (E * j) v)) at 2. rewrite app_nth1; [reflexivity|]. rewrite firstn_length, skipn_length. nia.
Qed.
(** A float checkpoint loaded in a packed and in an unpacked layer: the same attention. *)
Theorem C91_same_function : forall prefix (d : dict (list (list R))) w b m x kp am,
  NoDup (keys d) -> clean prefix d -> get d (prefix ++ "in_proj_weight")%string = Some w -> get d (prefix ++ "in_proj_bias")%string = Some b ->
  get d (prefix ++ "q_proj_weight")%string = None -> get d (prefix ++ "k_proj_weight")%string = None -> get d (prefix ++ "v_proj_weight")%string = None ->
  List.length w = (3 * embed m)%nat -> List.length b = (3 * embed m)%nat ->
  in_proj m = Packed (lin_of (embed m) w b) -> shapes m (oriented m x) (oriented m x) (oriented m x) ->
  mask_shapes m (len m x) (batch m x) (len m x) am kp -> mask_kinds am kp ->
  exists dp du wq bq wk bk wv bv, mha_load true prefix d = Some dp /\ mha_load false prefix d = Some du
  /\ get dp (prefix ++ "in_proj.weight")%string = Some w /\ get dp (prefix ++ "in_proj.bias")%string = Some b
  /\ get du (prefix ++ "q_proj.weight")%string = Some wq /\ get du (prefix ++ "q_proj.bias")%string = Some bq
  /\ get du (prefix ++ "k_proj.weight")%string = Some wk /\ get du (prefix ++ "k_proj.bias")%string = Some bk
  /\ get du (prefix ++ "v_proj.weight")%string = Some wv /\ get du (prefix ++ "v_proj.bias")%string = Some bv
  /\ exists o a o' a', forward m x x x kp am = Some (o, a)
     /\ forward (with_proj m (Separate (lin_of (embed m) wq bq) (lin_of (embed m) wk bk) (lin_of (embed m) wv bv))) x x x kp am = Some (o', a')
     /\ forall n l e, (n < batch m x)%nat -> (l < len m x)%nat -> at_ m o n l e = at_ m o' n l e.
Proof.
  intros prefix d w b m x kp am N C Hw Hb Hq Hk Hv Lw Lb Ep Sh Ms Mk.
  assert (FC : float_checkpoint prefix d).
  { split; [right; auto|]. intros src v [->| ->] Hg; [rewrite Hw in Hg|rewrite Hb in Hg]; injection Hg as <-; rewrite ?Lw, ?Lb, Nat.mul_comm; apply Nat.mod_mul; lia. }
  destruct (C91_load true prefix d N C FC) as (dp & E1 & R1 & _). destruct (C91_load false prefix d N C FC) as (du & E2 & R2 & _).
  exists dp, du, (third 0 w), (third 0 b), (third 1 w), (third 1 b), (third 2 w), (third 2 b). split; [exact E1|]. split; [exact E2|].
  split; [apply (R1 "in_proj_weight"%string "in_proj.weight"%string whole); [cbn; tauto|exact Hw]|].
  split; [apply (R1 "in_proj_bias"%string "in_proj.bias"%string whole); [cbn; tauto|exact Hb]|].
  split; [apply (R2 "in_proj_weight"%string "q_proj.weight"%string (third 0)); [cbn; tauto|exact Hw]|].
  split; [apply (R2 "in_proj_bias"%string "q_proj.bias"%string (third 0)); [cbn; tauto|exact Hb]|].
  split; [apply (R2 "in_proj_weight"%string "k_proj.weight"%string (third 1)); [cbn; tauto|exact Hw]|].
  split; [apply (R2 "in_proj_bias"%string "k_proj.bias"%string (third 1)); [cbn; tauto|exact Hb]|].
  split; [apply (R2 "in_proj_weight"%string "v_proj.weight"%string (third 2)); [cbn; tauto|exact Hw]|].
  split; [apply (R2 "in_proj_bias"%string "v_proj.bias"%string (third 2)); [cbn; tauto|exact Hb]|].
  assert (Rj : forall j, (j < 3)%nat -> same_rows (embed m) (part (lin_of (embed m) w b) j) (lin_of (embed m) (third j w) (third j b))).
  { intros j Hj. split; [reflexivity|]. intros o Ho. unfold part, lin_of. cbn [bs wt rows]. rewrite Lw. assert (D : (3 * embed m / 3 = embed m)%nat) by (rewrite Nat.mul_comm; apply Nat.div_mul; lia). rewrite D.
    rewrite (nth_third j b o [] (embed m) Lb Hj Ho), (nth_third j w o [] (embed m) Lw Hj Ho). split; reflexivity. }
  apply (C90_packed_separate m (lin_of (embed m) w b)); try assumption; apply Rj; lia.
Qed.

(** ** Findings *)
Open Scope string_scope.
(** The names are matched as substrings: in a decoder block with [attn] and [cross_attn], loading the whole
    dictionary (as torch did before it cut it by prefix) gives [attn] the weight of [cross_attn], and none to
    [cross_attn]. *)
Theorem C91_sibling_refuted : exists (d d' : dict (list nat)), NoDup (keys d)
  /\ mha_load true "attn." d = Some d' /\ get d "attn.in_proj_weight" = Some [1]%nat /\ get d "cross_attn.in_proj_weight" = Some [2]%nat
  /\ get d' "attn.in_proj.weight" = Some [2]%nat /\ get d' "cross_attn.in_proj_weight" = None.
Proof.
  exists [("attn.in_proj_weight", [1]%nat); ("cross_attn.in_proj_weight", [2]%nat)]. eexists. split.
  - repeat constructor; cbn; intros H; intuition discriminate.
  - split; [vm_compute; reflexivity|]. repeat split; vm_compute; reflexivity.
Qed.
(** A bias whose size is not a multiple of three is not checked. *)
Theorem C91_uneven_bias_refuted : exists (d d' : dict (list nat)) b, get d "in_proj_bias" = Some b /\ (List.length b mod 3 <> 0)%nat /\ mha_load false "" d = Some d'
  /\ get d' "v_proj.bias" = Some []%nat.
Proof. exists [("in_proj_bias", [1; 2; 3; 4]%nat)]. do 2 eexists. split; [reflexivity|]. split; [cbn; lia|]. split; vm_compute; reflexivity. Qed.

(** ** The hypotheses are met *)
Definition ckpt : dict (list (list R)) :=
  [("enc.attn.in_proj_weight", [[1; 2]; [3; 4]; [5; 6]; [7; 8]; [9; 10]; [11; 12]]%R); ("enc.attn.in_proj_bias", [[1]; [2]; [3]; [4]; [5]; [6]]%R);
   ("enc.attn.out_proj.weight", [[1; 0]; [0; 1]]%R); ("enc.norm.weight", [[1]; [1]]%R)].
Lemma ckpt_names : keys ckpt = ["enc.attn.in_proj_weight"; "enc.attn.in_proj_bias"; "enc.attn.out_proj.weight"; "enc.norm.weight"].
Proof. reflexivity. Qed.
Example C91_ckpt : NoDup (keys ckpt) /\ clean "enc.attn." ckpt /\ float_checkpoint "enc.attn." ckpt
  /\ (exists w, get ckpt "enc.attn.in_proj_weight" = Some w /\ List.length w = 6%nat) /\ (exists b, get ckpt "enc.attn.in_proj_bias" = Some b /\ List.length b = 6%nat).
Proof.
  split; [rewrite ckpt_names; repeat constructor; cbn; intros H; intuition discriminate|]. split.
  - intros name src I S H. rewrite ckpt_names in I. cbn in I, S. destruct I as [<-|[<-|[<-|[<-|[]]]]]; destruct S as [<-|[<-|[<-|[<-|[<-|[]]]]]]; vm_compute in H; try discriminate H; reflexivity.
  - split; [split; [right; repeat split; reflexivity|]|].
    + intros src v [->| ->] H; cbn in H; injection H as <-; reflexivity.
    + split; eexists; (split; [reflexivity|reflexivity]).
Qed.
Example C91_own : forall name src, In name ["attn.in_proj.weight"; "attn.in_proj.bias"; "attn.out_proj.weight"] -> In src sources -> contains ("attn." ++ src) name = false.
Proof. intros name src [<-|[<-|[<-|[]]]] [<-|[<-|[<-|[<-|[<-|[]]]]]]; reflexivity. Qed.
Print Assumptions C91_load.
Print Assumptions C91_own_checkpoint.
Print Assumptions C91_uneven_raises.
Print Assumptions C91_same_function.
Print Assumptions C91_sibling_refuted.
Print Assumptions C91_uneven_bias_refuted.
