(** Replacing layers by their quantized counterparts, C89. *)
From Coq Require Import List Bool String Arith Lia.
From Verif Require Import StateDict StateDictProps LayerReplace LayerReplaceProofs.
Import ListNotations.
Open Scope string_scope.

(** ** layerwise_quantize
    [quantized] (LayerReplaceProofs.v) is the description of the result; [erase] forgets object
    identities.  No object is registered twice, the names of the children of a module are distinct
    and the model itself is not a supported layer. *)
Theorem C89_layerwise_quantize {X} lm black (t : mtree X) : names_ok t -> NoDup (ids t) -> get lm (cls_of t) = None ->
  exists t', layerwise lm black t = Some t' /\ erase t' = quantized lm black [] t.
Proof. intros A B C. destruct (layerwise_quantized lm black t A B C) as (t' & H1 & H2 & _). eauto. Qed.

(** The tensors of the model keep their names and values. *)
Fixpoint pstate {X} (t : ptree X) : list (path * X) :=
  match t with P _ o ks => (o ++ flat_map (fun x => map (fun y => (fst x :: fst y, snd y)) (pstate (snd x))) ks)%list end.
Lemma pstate_erase {X} : forall t : mtree X, pstate (erase t) = state_dict t.
Proof.
  refine (tree_ind2 _ _). intros i c o ks IH. cbn [erase pstate state_dict]. f_equal. induction ks as [|x ks IHk]; [reflexivity|].
  cbn [map flat_map fst snd]. rewrite (IH x (or_introl eq_refl)). f_equal. apply IHk. intros y Hy. apply IH. right; exact Hy.
Qed.
Lemma pstate_quantized {X} lm black : forall (t : mtree X) p, pstate (quantized lm black p t) = state_dict t.
Proof.
  refine (tree_ind2 _ _). intros i c o ks IH p. cbn [quantized]. destruct (get lm c) as [[q|]|].
  - cbn [pstate flat_map]. apply app_nil_r.
  - apply pstate_erase.
  - cbn [pstate state_dict]. f_equal. induction ks as [|x ks IHk]; [reflexivity|]. cbn [map flat_map fst snd]. f_equal.
    + destruct (existsb _ black); [rewrite pstate_erase|rewrite (IH x (or_introl eq_refl))]; reflexivity.
    + apply IHk. intros y Hy. apply IH. right; exact Hy.
Qed.
Theorem C89_tensors_kept {X} lm black (t : mtree X) : names_ok t -> NoDup (ids t) -> get lm (cls_of t) = None ->
  exists t', layerwise lm black t = Some t' /\ state_dict t' = state_dict t.
Proof.
  intros A B C. destruct (C89_layerwise_quantize lm black t A B C) as (t' & H1 & H2). exists t'. split; [exact H1|].
  rewrite <- (pstate_erase t'), H2. apply pstate_quantized.
Qed.

(** A second run changes nothing. *)
Lemma quantized_again {X} lm black : (forall c q, get lm c = Some (Some q) -> get lm q = None) ->
  forall (t t' : mtree X) p, erase t' = quantized lm black p t -> quantized lm black p t' = erase t'.
Proof.
  intros Q. refine (tree_ind2 _ _). intros i c o ks IH [i' c' o' ks'] p E. cbn [quantized] in E. destruct (get lm c) as [[q|]|] eqn:G.
  - cbn [erase] in E. injection E as -> -> E. destruct ks'; [|discriminate]. cbn [quantized erase]. rewrite (Q c q G). reflexivity.
  - cbn [erase] in E. injection E as -> -> E. cbn [quantized]. rewrite G. reflexivity.
  - cbn [erase] in E. injection E as -> -> E. cbn [quantized erase]. rewrite G. f_equal.
    revert ks' E. induction ks as [|x ks IHk]; intros [|y ks'] E; try discriminate; [reflexivity|]. cbn [map] in E |- *. injection E as E1 E2 E3.
    f_equal; [f_equal|apply IHk; [intros z Hz; apply IH; right; exact Hz|exact E3]].
    rewrite E1. destruct (existsb _ black); [reflexivity|]. apply (IH x (or_introl eq_refl)). exact E2.
Qed.
Theorem C89_idempotent {X} lm black (t : mtree X) : names_ok t -> NoDup (ids t) -> get lm (cls_of t) = None ->
  (forall c q, get lm c = Some (Some q) -> get lm q = None) ->
  exists t1 t2, layerwise lm black t = Some t1 /\ layerwise lm black t1 = Some t2 /\ erase t2 = erase t1.
Proof.
  intros A B C Q. destruct (layerwise_quantized lm black t A B C) as (t1 & H1 & H2 & A1 & B1).
  assert (C1 : get lm (cls_of t1) = None).
  { destruct t as [i c o ks], t1 as [i1 c1 o1 ks1]. cbn [cls_of quantized erase] in *. rewrite C in H2. injection H2 as -> _ _. exact C. }
  destruct (layerwise_quantized lm black t1 A1 B1 C1) as (t2 & G1 & G2 & _). exists t1, t2. split; [exact H1|]. split; [exact G1|].
  rewrite G2. exact (quantized_again lm black Q t t1 [] H2).
Qed.

(** A network with a layer, a blacklisted layer and an attention block holding a linear layer. *)
Definition lm0 : layer_map := [("AvgPool2d", None); ("MultiheadAttention", Some "QuantMultiheadAttention"); ("Linear", Some "QuantLinear")].
Definition fc (i w : nat) : mtree nat := N i "Linear" [(["weight"], w)] [].
Definition net : mtree nat := N 0 "Net" [] [("fc", fc 1 10); ("body", N 2 "Sequential" [] [("0", fc 3 11); ("1", fc 4 12); ("pool", N 5 "AvgPool2d" [] [])]);
  ("attn", N 6 "MultiheadAttention" [(["in_proj_weight"], 13)] [("out_proj", fc 7 14)])].
Example C89_net_example : names_ok net /\ NoDup (ids net) /\ get lm0 (cls_of net) = None
  /\ option_map erase (layerwise lm0 [["body"; "1"]] net) = Some (P "Net" [] [("fc", P "QuantLinear" [(["weight"], 10)] []);
       ("body", P "Sequential" [] [("0", P "QuantLinear" [(["weight"], 11)] []); ("1", P "Linear" [(["weight"], 12)] []); ("pool", P "AvgPool2d" [] [])]);
       ("attn", P "QuantMultiheadAttention" [(["in_proj_weight"], 13); (["out_proj"; "weight"], 14)] [])]).
Proof. split; [cbn; repeat split; repeat constructor; cbn; intuition discriminate|]. split; [cbn; repeat constructor; cbn; intuition lia|]. split; reflexivity. Qed.

(** A layer under two names of one module: the second name keeps the float layer. *)
Theorem C89_two_names_refuted : exists t : mtree nat, names_ok t /\ get lm0 (cls_of t) = None
  /\ option_map erase (layerwise lm0 [] t) = Some (P "Net" [] [("a", P "QuantLinear" [(["weight"], 10)] []); ("b", P "Linear" [(["weight"], 10)] [])]).
Proof. exists (N 0 "Net" [] [("a", fc 1 10); ("b", fc 1 10)]). split; [cbn; repeat split; repeat constructor; cbn; intuition discriminate|]. split; reflexivity. Qed.
(** A layer shared by two blocks: two quantized layers, no longer the same object. *)
Theorem C89_untied_refuted : exists (t t' : mtree nat) a b, walk t ["enc"; "fc"] = walk t ["dec"; "fc"]
  /\ layerwise lm0 [] t = Some t' /\ walk t' ["enc"; "fc"] = Some a /\ walk t' ["dec"; "fc"] = Some b
  /\ cls_of a = "QuantLinear" /\ cls_of b = "QuantLinear" /\ id_of a <> id_of b.
Proof.
  exists (N 0 "Net" [] [("enc", N 1 "Block" [] [("fc", fc 3 10)]); ("dec", N 2 "Block" [] [("fc", fc 3 10)])]).
  do 3 eexists. split; [reflexivity|]. split; [vm_compute; reflexivity|]. split; [reflexivity|]. split; [reflexivity|]. split; [reflexivity|]. split; [reflexivity|]. cbn. lia.
Qed.
(** A blacklisted name of a shared layer is replaced in the place of the name that is not. *)
Theorem C89_blacklist_refuted : exists t : mtree nat,
  option_map erase (layerwise lm0 [["enc"; "fc"]] t) = Some (P "Net" [] [("enc", P "Block" [] [("fc", P "QuantLinear" [(["weight"], 10)] [])]); ("dec", P "Block" [] [("fc", P "Linear" [(["weight"], 10)] [])])]).
Proof. exists (N 0 "Net" [] [("enc", N 1 "Block" [] [("fc", fc 3 10)]); ("dec", N 2 "Block" [] [("fc", fc 3 10)])]). reflexivity. Qed.
(** A model that is a supported layer stays as it is, with a quantized layer registered under the
    empty name. *)
Theorem C89_root_layer_refuted : option_map erase (layerwise lm0 [] (fc 0 10))
  = Some (P "Linear" [(["weight"], 10)] [("", P "QuantLinear" [(["weight"], 10)] [])]).
Proof. reflexivity. Qed.

(** ** Constructor arguments
    Keywords given to the rewriter win; other arguments of the new class come from the attribute of
    the same name; for [bias], whether the attribute is not None. *)
Lemma get_filter sig (d : dict value) k : get (filter (fun x => existsb (String.eqb (fst x)) sig) d) k = if existsb (String.eqb k) sig then get d k else None.
Proof.
  induction d as [|[a v] d IH]; [destruct (existsb _ sig); reflexivity|]. cbn [filter fst get]. destruct (String.eqb_spec a k) as [->|Ne].
  - destruct (existsb (String.eqb k) sig) eqn:E; cbn [get]; [rewrite String.eqb_refl; reflexivity|rewrite IH; exact E || reflexivity].
  - destruct (existsb (String.eqb a) sig); cbn [get]; [destruct (String.eqb_spec a k); [congruence|exact IH]|exact IH].
Qed.
Lemma get_map_origin (d : dict value) k : get (map_origin_vars d) k = if String.eqb k "bias" then option_map (fun v => VBool (negb (is_none v))) (get d k) else get d k.
Proof.
  unfold map_origin_vars. induction d as [|[a v] d IH]; [destruct (String.eqb k "bias"); reflexivity|]. cbn [map fst snd]. destruct (String.eqb_spec a "bias") as [->|Ne].
  - cbn [get]. destruct (String.eqb_spec "bias" k) as [<-|N2]; [reflexivity|exact IH].
  - cbn [get]. destruct (String.eqb_spec a k) as [->|N2]; [|exact IH]. destruct (String.eqb_spec k "bias"); [congruence|reflexivity].
Qed.
Lemma update_ok attrs name : forall kw d d', update_keywords attrs name kw d = Some d' -> NoDup (keys kw) ->
  forall k, get d' k = match get kw k with Some v => eval_keyword attrs name v | None => get d k end.
Proof.
  induction kw as [|[a v] kw IH]; intros d d' E ND k; [injection E as <-; reflexivity|]. cbn [update_keywords get keys map fst] in *. inversion ND as [|? ? Ha ND']; subst.
  destruct (eval_keyword attrs name v) as [x|] eqn:V; [|discriminate]. rewrite (IH _ _ E ND' k). destruct (String.eqb_spec a k) as [->|Ne].
  - rewrite (proj2 (get_notin kw k) Ha), get_set_same, V. reflexivity.
  - rewrite (get_set_other _ _ _ _ Ne). reflexivity.
Qed.
Lemma update_all attrs name : forall kw d d' k v, update_keywords attrs name kw d = Some d' -> get kw k = Some v -> exists x, eval_keyword attrs name v = Some x.
Proof.
  induction kw as [|[a u] kw IH]; intros d d' k v E G; [discriminate|]. cbn [update_keywords get] in *. destruct (eval_keyword attrs name u) as [x|] eqn:V; [|discriminate].
  destruct (String.eqb a k); [injection G as <-; eauto|eapply IH; eauto].
Qed.
Theorem C89_new_arguments sig kw attrs bias name d : new_kwargs sig kw attrs bias name = Some d -> NoDup (keys kw) ->
  forall k, get d k = match get kw k with
                      | Some (Val v) => Some v
                      | Some (Lam1 f) => Some (f (module_attributes attrs bias))
                      | Some (Lam2 f) => option_map (f (module_attributes attrs bias)) name
                      | Some (LamN s) => Some (VOther s)
                      | None => if existsb (String.eqb k) sig then
                                  if String.eqb k "bias"
                                  then option_map (fun v => VBool (negb (is_none v))) (match bias with Some b => Some b | None => get attrs "bias" end)
                                  else get attrs k
                                else None
                      end.
Proof.
  unfold new_kwargs. intros E ND k. rewrite (update_ok _ _ _ _ _ E ND k). destruct (get kw k) as [v|] eqn:Gk.
  { destruct v as [v|f|f|s], name as [n|]; try reflexivity. exfalso. destruct (update_all _ _ _ _ _ _ _ E Gk) as [x Hx]. discriminate Hx. }
  rewrite get_filter, get_map_origin.
  destruct (existsb _ sig); [|reflexivity]. destruct (String.eqb_spec k "bias") as [->|Ne]; unfold module_attributes; destruct bias as [b|]; try reflexivity.
  - rewrite get_set_same. reflexivity.
  - apply get_set_other. congruence.
Qed.
Example C89_new_arguments_example :
  new_kwargs ["in_features"; "out_features"; "bias"; "weight_quant"; "name"] [("weight_quant", Val (VOther "Int8")); ("name", Lam2 (fun _ n => VOther n))]
    [("training", VBool false); ("in_features", VNat 4); ("out_features", VNat 8)] (Some VNone) (Some "body.0")
  = Some [("in_features", VNat 4); ("out_features", VNat 8); ("bias", VBool false); ("weight_quant", VOther "Int8"); ("name", VOther "body.0")].
Proof. reflexivity. Qed.
(** Recurrent layers hold a boolean [bias]: a layer without bias is rebuilt with bias=True. *)
Theorem C89_recurrent_bias_refuted : exists sig kw attrs bias name d, bias = Some (VBool false) /\ get attrs "bias" = Some (VBool false)
  /\ new_kwargs sig kw attrs bias name = Some d /\ get d "bias" = Some (VBool true).
Proof.
  exists ["input_size"; "hidden_size"; "bias"], [], [("input_size", VNat 3); ("hidden_size", VNat 4); ("bias", VBool false)], (Some (VBool false)), (Some "rnn"). eexists.
  split; [reflexivity|]. split; [reflexivity|]. split; reflexivity.
Qed.

(** ** quantize(): layer_handler *)
Section Handler.
Variables (subclass : string -> string -> bool) (lm : layer_map).
Hypothesis subclass_refl : forall c, subclass c c = true.
Definition supported (c : string) : bool := existsb (subclass c) (keys lm).
Definition mods_ok (next : nat) (ms : mods) : Prop := NoDup (keys ms) /\ NoDup (map (fun x => fst (snd x)) ms) /\ forall x, In x ms -> fst (snd x) < next.

Lemma get_In {V} (d : dict V) k v : get d k = Some v -> In (k, v) d.
Proof. induction d as [|[a u] d IH]; [discriminate|]. cbn [get]. destruct (String.eqb_spec a k) as [->|]; [intros E; injection E as ->; left; reflexivity|intros E; right; exact (IH E)]. Qed.
Lemma first_name_unique next ms n i c : mods_ok next ms -> get ms n = Some (i, c) -> first_name i ms = Some n.
Proof.
  intros (ND & NI & _) G. apply get_In in G. clear ND. induction ms as [|[a [j c']] ms IH]; [destruct G|]. cbn [map fst snd first_name] in *. inversion NI as [|? ? Hj NI']; subst.
  destruct G as [G|G]; [injection G as -> -> ->; rewrite Nat.eqb_refl; reflexivity|]. destruct (Nat.eqb_spec i j) as [->|]; [|exact (IH NI' G)].
  exfalso. apply Hj. apply in_map_iff. exists (n, (j, c)). split; [reflexivity|exact G].
Qed.
Lemma set_In (ms : mods) k v x : In x (set ms k v) -> x = (k, v) \/ In x ms.
Proof. induction ms as [|[a u] ms IH]; cbn [set]; [intros [<-|[]]; left; reflexivity|]. destruct (String.eqb_spec a k) as [->|]; cbn [In]; [intuition|intros [<-|H]; [right; left; reflexivity|destruct (IH H); auto]]. Qed.
Lemma keys_set (ms : mods) k v : In k (keys ms) -> keys (set ms k v) = keys ms.
Proof. induction ms as [|[a u] ms IH]; [intros []|]. cbn [set keys map fst]. destruct (String.eqb_spec a k) as [->|Ne]; [reflexivity|]. intros [E|H]; [congruence|]. cbn [keys map fst]. f_equal. exact (IH H). Qed.
Lemma set_ok next ms k q : mods_ok next ms -> In k (keys ms) -> mods_ok (S next) (set ms k (next, q)).
Proof.
  intros (ND & NI & B) Hk. split; [rewrite (keys_set ms k _ Hk); exact ND|]. split.
  - clear ND. induction ms as [|[a [j c]] ms IH]; [destruct Hk|]. cbn [set map fst snd] in *. inversion NI as [|? ? Hj NI']; subst. destruct (String.eqb_spec a k) as [->|Ne].
    + cbn [map fst snd]. constructor; [|exact NI']. intros H. apply in_map_iff in H. destruct H as (x & E & Hx). pose proof (B x (or_intror Hx)). lia.
    + cbn [map fst snd]. destruct Hk as [E|Hk]; [cbn in E; congruence|]. constructor; [|apply IH; [exact NI'|intros x Hx; apply B; right; exact Hx|exact Hk]].
      intros H. apply in_map_iff in H. destruct H as (x & E & Hx). apply set_In in Hx. destruct Hx as [->|Hx].
      * cbn in E. pose proof (B (a, (j, c)) (or_introl eq_refl)). cbn in H. lia.
      * apply Hj. apply in_map_iff. exists x. split; assumption.
  - intros x Hx. apply set_In in Hx. destruct Hx as [->|Hx]; [cbn; lia|]. specialize (B x Hx). lia.
Qed.
Lemma get_keys {V} (d : dict V) k v : get d k = Some v -> In k (keys d).
Proof. intros G. apply get_in. congruence. Qed.

(** A called module of a class that is not in the map but derives from one that is: KeyError. *)
Theorem C89_subclass_raises : forall ns next ms n i c, mods_ok next ms -> In n ns -> get ms n = Some (i, c) -> supported c = true -> get lm c = None ->
  layer_handler subclass lm next ns ms = None.
Proof.
  induction ns as [|m ns IH]; intros next ms n i c OK Hn G Sc Gc; [destruct Hn|]. cbn [layer_handler].
  destruct (String.eqb_spec m n) as [->|Ne].
  - rewrite G. fold (supported c). rewrite Sc, Gc. reflexivity.
  - destruct Hn as [E|Hn]; [congruence|]. destruct (get ms m) as [[j d]|] eqn:Gm; [|reflexivity]. fold (supported d).
    destruct (supported d); [|eapply IH; eauto]. destruct (get lm d) as [[q|]|]; [|eapply IH; eauto|reflexivity].
    rewrite (first_name_unique next ms m j d OK Gm). eapply IH; [apply set_ok; [exact OK|exact (get_keys ms m _ Gm)]|exact Hn|rewrite get_set_other by exact Ne; exact G|exact Sc|exact Gc].
Qed.

(** A layer called by two nodes: the quantized layer found by the second call is not in the map. *)
Theorem C89_shared_layer_raises next ms pre n mid rest i c q : mods_ok next ms -> get ms n = Some (i, c) -> get lm c = Some (Some q) ->
  supported q = true -> get lm q = None -> layer_handler subclass lm next (pre ++ n :: mid ++ n :: rest) ms = None.
Proof.
  intros OK G Gc Sq Gq.
  assert (Sc : supported c = true). { unfold supported. apply existsb_exists. exists c. split; [exact (get_keys lm c _ Gc)|apply subclass_refl]. }
  assert (Gen : forall pre next ms i c, mods_ok next ms -> get ms n = Some (i, c) -> get lm c = Some (Some q) -> supported c = true ->
            layer_handler subclass lm next (pre ++ n :: mid ++ n :: rest)%list ms = None).
  { clear - Sq Gq subclass_refl. induction pre as [|m pre IH]; intros next ms i c OK G Gc Sc; cbn [app layer_handler].
    - rewrite G. fold (supported c). rewrite Sc, Gc, (first_name_unique next ms n i c OK G).
      apply (C89_subclass_raises (mid ++ n :: rest)%list (S next) (set ms n (next, q)) n next q); [apply set_ok; [exact OK|exact (get_keys ms n _ G)]|apply in_or_app; right; left; reflexivity|apply get_set_same|exact Sq|exact Gq].
    - destruct (get ms m) as [[j d]|] eqn:Gm; [|reflexivity]. fold (supported d). destruct (supported d); [|eapply IH; eauto]. destruct (get lm d) as [[q'|]|] eqn:Gd; [|eapply IH; eauto|reflexivity].
      rewrite (first_name_unique next ms m j d OK Gm). destruct (String.eqb_spec m n) as [->|Ne].
      + rewrite G in Gm. injection Gm as <- <-. rewrite Gc in Gd. injection Gd as <-.
        apply (C89_subclass_raises (pre ++ n :: mid ++ n :: rest)%list (S next) (set ms n (next, q)) n next q); [apply set_ok; [exact OK|exact (get_keys ms n _ G)]|apply in_or_app; right; left; reflexivity|apply get_set_same|exact Sq|exact Gq].
      + eapply IH; [apply set_ok; [exact OK|exact (get_keys ms m _ Gm)]|rewrite get_set_other by exact Ne; exact G|exact Gc|exact Sc]. }
  apply (Gen pre next ms i c OK G Gc Sc).
Qed.

(** Every layer called once, of classes of the map: each becomes its counterpart, other modules
    stay. *)
Theorem C89_layers_replaced : forall ns next ms, mods_ok next ms -> NoDup ns -> (forall n, In n ns -> exists i c, get ms n = Some (i, c) /\ (supported c = true -> get lm c <> None)) ->
  exists ms', layer_handler subclass lm next ns ms = Some ms' /\ keys ms' = keys ms
  /\ forall n, match get ms n with
               | Some (i, c) => match (if existsb (String.eqb n) ns then get lm c else None) with
                                | Some (Some q) => exists j, get ms' n = Some (j, q)
                                | _ => get ms' n = Some (i, c)
                                end
               | None => get ms' n = None
               end.
Proof.
  induction ns as [|m ns IH]; intros next ms OK ND H.
  - exists ms. split; [reflexivity|]. split; [reflexivity|]. intros n. cbn [existsb]. destruct (get ms n) as [[i c]|]; reflexivity.
  - inversion ND as [|? ? Hm ND']; subst. destruct (H m (or_introl eq_refl)) as (i & c & G & Hc). cbn [layer_handler]. rewrite G. fold (supported c).
    assert (Em : existsb (String.eqb m) ns = false). { destruct (existsb _ ns) eqn:E; [|reflexivity]. apply existsb_exists in E. destruct E as (x & Hx & E). apply String.eqb_eq in E. subst. contradiction. }
    assert (Keep : (supported c = true -> get lm c = Some None) -> exists ms', layer_handler subclass lm next ns ms = Some ms' /\ keys ms' = keys ms
              /\ forall n, match get ms n with Some (i, c) => match (if existsb (String.eqb n) (m :: ns) then get lm c else None) with Some (Some q) => exists j, get ms' n = Some (j, q) | _ => get ms' n = Some (i, c) end | None => get ms' n = None end).
    { intros Hk. destruct (IH next ms OK ND' (fun n Hn => H n (or_intror Hn))) as (ms' & A & K & B). exists ms'. split; [exact A|]. split; [exact K|]. intros n. specialize (B n). cbn [existsb].
      destruct (String.eqb_spec n m) as [->|Ne]; cbn [orb]; [|exact B]. rewrite G in *. rewrite Em in B.
      destruct (get lm c) as [[q|]|] eqn:Gc; try exact B. exfalso. assert (Sc : supported c = true) by (unfold supported; apply existsb_exists; exists c; split; [exact (get_keys lm c _ Gc)|apply subclass_refl]). specialize (Hk Sc). congruence. }
    destruct (supported c) eqn:Sc; [|apply Keep; discriminate]. specialize (Hc eq_refl). destruct (get lm c) as [[q|]|] eqn:Gc; [|apply Keep; reflexivity|congruence].
    rewrite (first_name_unique next ms m i c OK G).
    destruct (IH (S next) (set ms m (next, q))) as (ms' & A & K & B).
    { apply set_ok; [exact OK|exact (get_keys ms m _ G)]. }
    { exact ND'. }
    { intros n Hn. destruct (H n (or_intror Hn)) as (i' & c' & G' & H'). exists i', c'. split; [|exact H']. rewrite get_set_other; [exact G'|]. intros ->. exact (Hm Hn). }
    exists ms'. split; [exact A|]. split; [rewrite K; apply keys_set; exact (get_keys ms m _ G)|]. intros n. specialize (B n). cbn [existsb].
    destruct (String.eqb_spec n m) as [->|Ne]; cbn [orb].
    + rewrite get_set_same, Em in B. rewrite G, Gc. exists next. exact B.
    + rewrite get_set_other in B by congruence. exact B.
Qed.
End Handler.

(** Classes of the default map: quantized layers derive from the float ones. *)
Definition sub0 (a b : string) : bool := String.eqb a b || (String.eqb a "QuantLinear" && String.eqb b "Linear") || (String.eqb a "LazyLinear" && String.eqb b "Linear").
Definition ms0 : mods := [("a", (0, "Linear")); ("act", (1, "ReLU")); ("b", (2, "Linear"))].
Example C89_handler_example : mods_ok 3 ms0 /\ (forall c, sub0 c c = true)
  /\ layer_handler sub0 lm0 3 ["a"; "act"; "b"] ms0 = Some [("a", (3, "QuantLinear")); ("act", (1, "ReLU")); ("b", (4, "QuantLinear"))]
  /\ supported sub0 lm0 "QuantLinear" = true /\ layer_handler sub0 lm0 3 ["a"; "act"; "b"; "act"; "a"] ms0 = None
  /\ layer_handler sub0 lm0 3 ["a"] [("a", (0, "LazyLinear"))] = None.
Proof.
  split; [split; [|split]; [repeat constructor; cbn; intuition discriminate|repeat constructor; cbn; intuition lia|cbn; intros x Hx; repeat (destruct Hx as [<-|Hx]; [cbn; lia|]); destruct Hx]|].
  split; [intros c; unfold sub0; rewrite String.eqb_refl; reflexivity|]. repeat split.
Qed.

(** ** State around quantize() and layerwise_quantize() *)
Fixpoint all_flags (b : bool) (t : ftree) : bool := match t with F f ks => Bool.eqb f b && forallb (all_flags b) ks end.
Lemma ftree_ind2 (P : ftree -> Prop) : (forall b ks, (forall x, In x ks -> P x) -> P (F b ks)) -> forall t, P t.
Proof. intros H. fix IH 1. intros [b ks]. apply H. induction ks as [|x ks IHk]; intros y []; [subst y; apply IH|apply IHk, H0]. Qed.
Lemma train_all b : forall t, all_flags b (train b t) = true.
Proof. refine (ftree_ind2 _ _). intros f ks IH. cbn [train all_flags]. rewrite eqb_reflx. cbn [andb]. apply forallb_forall. intros x Hx. apply in_map_iff in Hx. destruct Hx as (y & <- & Hy). exact (IH y Hy). Qed.
Lemma train_same b : forall t, all_flags b t = true <-> train b t = t.
Proof.
  intros t. split; [|intros <-; apply train_all]. revert t. refine (ftree_ind2 _ _). intros f ks IH. cbn [train all_flags]. rewrite andb_true_iff, forallb_forall. intros [E A]. apply eqb_prop in E. subst f. f_equal.
  apply map_id_in. intros x Hx. apply (IH x Hx), A, Hx.
Qed.
(** On success the configuration flag is restored and all modules of the result are in the mode of
    the model; the modes are those from before exactly if all modules were in the mode of the
    model. *)
Theorem C89_flags_after body cfg t t' : body (train false t) = Some t' ->
  exists r, guarded body cfg t = (false, cfg, r) /\ all_flags (root_flag t) r = true /\ (t' = train false t -> r = t <-> all_flags (root_flag t) t = true).
Proof.
  intros E. unfold guarded. rewrite E. eexists. split; [reflexivity|]. split; [apply train_all|]. intros ->.
  assert (TT : forall a b t, train a (train b t) = train a t). { intros a b. refine (ftree_ind2 _ _). intros f ks IH. cbn [train]. f_equal. rewrite map_map. apply map_ext_in. exact IH. }
  rewrite TT. symmetry. apply train_same.
Qed.
(** A normalization layer frozen in evaluation mode is put in training mode by quantization; an
    exception leaves the model in evaluation mode and missing keys ignored. *)
Theorem C89_flags_refuted :
  (exists t, guarded Some false t = (false, false, F true [F true []]) /\ t = F true [F false []])
  /\ (exists t, guarded (fun _ => None) false t = (true, true, F false [F false []]) /\ t = F true [F true []]).
Proof. split; [exists (F true [F false []])|exists (F true [F true []])]; split; reflexivity. Qed.
Example C89_flags_example : guarded Some true (F false [F false []; F false [F false []]]) = (false, true, F false [F false []; F false [F false []]]).
Proof. reflexivity. Qed.

Print Assumptions C89_layerwise_quantize.
Print Assumptions C89_tensors_kept.
Print Assumptions C89_idempotent.
Print Assumptions C89_two_names_refuted.
Print Assumptions C89_untied_refuted.
Print Assumptions C89_blacklist_refuted.
Print Assumptions C89_root_layer_refuted.
Print Assumptions C89_new_arguments.
Print Assumptions C89_recurrent_bias_refuted.
Print Assumptions C89_subclass_raises.
Print Assumptions C89_shared_layer_raises.
Print Assumptions C89_layers_replaced.
Print Assumptions C89_flags_after.
Print Assumptions C89_flags_refuted.
