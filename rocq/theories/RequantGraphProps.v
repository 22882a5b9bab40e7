(** Properties of the insertion and alignment of activation quantizers (C53, C77). *)
From Coq Require Import List Bool Arith ZArith QArith Lqa Lia.
Import ListNotations.
From Verif Require Import RequantGraph.
Local Open Scope nat_scope.

(** * Specification, part 1: graphs and their executions *)

(** Position of a node in the execution order. *)
Fixpoint pos (ns : list node) (i : nat) : nat :=
  match ns with [] => 0 | n :: ns' => if fst n =? i then 0 else S (pos ns' i) end.
(** Operands are computed before they are used. *)
Definition topo (ns : list node) : Prop :=
  forall i o, find_node ns i = Some o -> forall j, In j (ins_of o) -> pos ns j < pos ns i.

(** An execution assigns to each node the list of the elements of its value.  What each kind of
    node may compute: *)
Definition value := list Q.
Definition elem_of_some (vs : list value) (x : Q) : Prop := exists v, In v vs /\ In x v.
(** One element of each operand. *)
Definition one_each (vs : list value) (xs : list Q) : Prop := Forall2 (fun v x => In x v) vs xs.
Fixpoint sumQ (xs : list Q) : Q := match xs with [] => 0 | x :: xs' => x + sumQ xs' end.
Definition add_elem (alpha c : Q) (xs : list Q) : Q :=
  match xs with [] => c | x :: xs' => x + alpha * sumQ xs' + c end.
Fixpoint dotQ (ws xs : list Q) : Q :=
  match ws, xs with w :: ws', x :: xs' => w * x + dotQ ws' xs' | _, _ => 0 end.

Definition low (signed : bool) (bw : Z) : Z := if signed then (- 2 ^ (bw - 1))%Z else 0%Z.

Definition mod_step (s : st) (md : module) (vs : list value) (out : value) : Prop :=
  match md with
  | FpAct _ unsigned _ => unsigned = true -> Forall (fun o => 0 <= o)%Q out
  | Pass _ _ =>    (* max/average pooling, dropout, shuffles: non-negative combinations *)
      Forall (fun o => exists ws xs, Forall (fun w => 0 <= w)%Q ws /\
                       Forall (elem_of_some vs) xs /\ (o == dotQ ws xs)%Q) out
  | QAct q =>      (* codes of the quantizer's sign times a positive scale *)
      exists sc, (0 < sc)%Q /\
      Forall (fun o => exists k, (low (t_signed (tqs s (q_tq q))) (t_bw (tqs s (q_tq q))) <= k)%Z
                                 /\ (o == sc * inject_Z k)%Q) out
  | BNorm _ | Other _ _ _ => True
  end.

Definition node_step (s : st) (o : op) (vs : list value) (out : value) : Prop :=
  match o with
  | OModule m _ => match get_module s m with Some md => mod_step s md vs out | None => False end
  | OFn (FReshape | FFlatten | FTranspose | FCat) _ => Forall (elem_of_some vs) out
  | OMeth (MView | MReshape | MFlatten | MT | MPermute | MTranspose) _ => Forall (elem_of_some vs) out
  | OFn (FAdd a c) _ | OMeth (MAdd a c) _ =>
      Forall (fun o => exists xs, one_each vs xs /\ (o == add_elem a c xs)%Q) out
  | _ => True
  end.

Definition execution (s : st) (v : nat -> value) : Prop :=
  forall i o, find_node (nodes s) i = Some o -> node_step s o (map v (ins_of o)) (v i).

(** The graphs for which the sign analysis is claimed to be right: no graph input or attribute is
    reached, quantized activations reached are unsigned (or expose a signed input quantizer),
    additions have non-negative constants and multipliers. *)
Inductive sign_covered (s : st) : nat -> Prop :=
| SC_act i m ins k u f : find_node (nodes s) i = Some (OModule m ins) ->
    get_module s m = Some (FpAct k u f) -> sign_covered s i
| SC_pass i m ins p f : find_node (nodes s) i = Some (OModule m ins) ->
    get_module s m = Some (Pass p f) -> (forall j, In j ins -> sign_covered s j) -> sign_covered s i
| SC_q i m ins q : find_node (nodes s) i = Some (OModule m ins) ->
    get_module s m = Some (QAct q) ->
    t_signed (tqs s (q_tq q)) = false \/ q_insigned q = Some true -> sign_covered s i
| SC_bn i m ins f : find_node (nodes s) i = Some (OModule m ins) ->
    get_module s m = Some (BNorm f) -> sign_covered s i
| SC_other i m ins b f iq : find_node (nodes s) i = Some (OModule m ins) ->
    get_module s m = Some (Other iq b f) -> iq = None \/ iq = Some (Some true) -> sign_covered s i
| SC_fn i f ins : find_node (nodes s) i = Some (OFn f ins) ->
    (forall a c, f = FAdd a c -> (0 <= a)%Q /\ (0 <= c)%Q) ->
    (forall j, In j ins -> sign_covered s j) -> sign_covered s i
| SC_fother i f ins : find_node (nodes s) i = Some (OFn (FOther f) ins) -> sign_covered s i
| SC_meth i m ins : find_node (nodes s) i = Some (OMeth m ins) ->
    (forall a c, m = MAdd a c -> (0 <= a)%Q /\ (0 <= c)%Q) ->
    (forall j, In j ins -> sign_covered s j) -> sign_covered s i
| SC_mother i f ins : find_node (nodes s) i = Some (OMeth (MOther f) ins) -> sign_covered s i.

Definition nonneg (v : value) : Prop := Forall (fun x => 0 <= x)%Q v.

(** * Lemmas *)
Lemma dedup_in l x : In x (dedup l) <-> In x l.
Proof.
  induction l as [|y l IH]; [split; auto|]. cbn [dedup In]. rewrite filter_In, IH.
  destruct (x =? y) eqn:E; [apply Nat.eqb_eq in E; subst; split; auto; intros _; left; reflexivity|].
  apply Nat.eqb_neq in E. split; [intuition|]. intros [H|H]; [left; exact H|right; split; auto].
Qed.

Lemma pos_le ns i : pos ns i <= length ns.
Proof. induction ns as [|n ns IH]; cbn; [lia|]. destruct (fst n =? i); lia. Qed.
Lemma pos_found ns i o : find_node ns i = Some o -> pos ns i < length ns.
Proof.
  unfold find_node. induction ns as [|n ns IH]; cbn; [discriminate|].
  destruct (fst n =? i); [lia|]. intro H. specialize (IH H). lia.
Qed.

Lemma sumQ_nonneg xs : Forall (fun x => 0 <= x)%Q xs -> (0 <= sumQ xs)%Q.
Proof. induction 1; cbn; lra. Qed.
Lemma dotQ_nonneg ws : Forall (fun w => 0 <= w)%Q ws -> forall xs, Forall (fun x => 0 <= x)%Q xs ->
  (0 <= dotQ ws xs)%Q.
Proof.
  induction 1 as [|w ws Hw _ IH]; intros xs Hx; [cbn; lra|].
  destruct Hx as [|x xs Hx0 Hx]; [cbn; lra|]. cbn [dotQ]. specialize (IH _ Hx).
  assert (0 <= w * x)%Q by (apply Qmult_le_0_compat; assumption). lra.
Qed.
Lemma add_elem_nonneg a c xs : (0 <= a)%Q -> (0 <= c)%Q -> Forall (fun x => 0 <= x)%Q xs ->
  (0 <= add_elem a c xs)%Q.
Proof.
  intros Ha Hc H. destruct H as [|x xs Hx H]; [exact Hc|]. cbn [add_elem].
  pose proof (sumQ_nonneg _ H).
  assert (0 <= a * sumQ xs)%Q by (apply Qmult_le_0_compat; assumption). lra.
Qed.
Lemma one_each_nonneg vs xs : one_each vs xs -> (forall v, In v vs -> nonneg v) ->
  Forall (fun x => 0 <= x)%Q xs.
Proof.
  induction 1 as [|v x vs xs Hx _ IH]; intros H; [constructor|]. constructor.
  - specialize (H v (or_introl eq_refl)). unfold nonneg in H. rewrite Forall_forall in H. auto.
  - apply IH. intros w Hw. apply H. right; exact Hw.
Qed.

Lemma in_map_v (v : nat -> value) ins x : elem_of_some (map v ins) x -> exists j, In j ins /\ In x (v j).
Proof. intros (w & Hw & Hx). apply in_map_iff in Hw. destruct Hw as (j & <- & Hj). eauto. Qed.

Lemma forallb_app {A} (f : A -> bool) l1 l2 : forallb f (l1 ++ l2) = forallb f l1 && forallb f l2.
Proof. apply List.forallb_app. Qed.

Lemma forallb_flat_map {A B} (p : B -> bool) (f : A -> list B) l :
  forallb p (flat_map f l) = true -> forall x, In x l -> forallb p (f x) = true.
Proof.
  induction l as [|a l IH]; intros H x Hx; [destruct Hx|].
  cbn [flat_map] in H. rewrite List.forallb_app in H. apply andb_prop in H. destruct H as [H1 H2].
  destruct Hx as [<-|Hx]; auto.
Qed.

(** The sign analysis is right on covered nodes. *)
Lemma unsigned_sound s v : topo (nodes s) -> execution s v ->
  forall fuel ins,
  (forall i, In i ins -> sign_covered s i /\ pos (nodes s) i < fuel) ->
  forallb (fun b => b) (unsigned_list fuel s ins) = true ->
  forall i, In i ins -> nonneg (v i).
Proof.
  intros Ht He. induction fuel as [|k IH]; intros ins Hc Hall i Hi.
  { destruct (Hc i Hi) as [_ H]. lia. }
  destruct (Hc i Hi) as [Hcov Hpos].
  cbn [unsigned_list] in Hall. pose proof (forallb_flat_map _ _ _ Hall i Hi) as Hf. clear Hall.
  assert (Hsub : forall o, find_node (nodes s) i = Some o ->
            (forall j, In j (ins_of o) -> sign_covered s j) ->
            forallb (fun b => b) (unsigned_list k s (all_input_nodes o)) = true ->
            forall j, In j (ins_of o) -> nonneg (v j)).
  { intros o Ho Hcj Hl j Hj. eapply IH; [|exact Hl|].
    - intros j' Hj'. unfold all_input_nodes in Hj'. rewrite dedup_in in Hj'.
      split; [apply Hcj, Hj'|]. specialize (Ht _ _ Ho _ Hj'). lia.
    - unfold all_input_nodes. rewrite dedup_in. exact Hj. }
  destruct Hcov as
    [i m ins' kk u f Hn Hm | i m ins' p f Hn Hm Hj | i m ins' q Hn Hm Hq
    | i m ins' f Hn Hm | i m ins' b f iq Hn Hm Hq | i f ins' Hn Hadd Hj | i f ins' Hn
    | i m ins' Hn Hadd Hj | i f ins' Hn];
    pose proof (He _ _ Hn) as Hs; rewrite Hn in Hf; cbn [node_step ins_of] in Hs;
    try rewrite Hm in Hf; try rewrite Hm in Hs.
  - cbn [mod_step] in Hs. destruct kk, u; try discriminate Hf. apply Hs; reflexivity.
  - specialize (Hsub _ Hn Hj Hf). cbn [mod_step ins_of] in *.
    unfold nonneg. rewrite Forall_forall in Hs |- *. intros o Ho.
    destruct (Hs o Ho) as (ws & xs & Hw & Hx & ->). apply dotQ_nonneg; [exact Hw|].
    rewrite Forall_forall in Hx |- *. intros x Hxx. destruct (in_map_v _ _ _ (Hx x Hxx)) as (j & Hj1 & Hj2).
    specialize (Hsub j Hj1). unfold nonneg in Hsub. rewrite Forall_forall in Hsub. auto.
  - cbn [mod_step] in Hs. destruct Hq as [Hq|Hq]; [|rewrite Hq in Hf; discriminate Hf].
    rewrite Hq in Hs. destruct Hs as (sc & Hsc & Hs). unfold nonneg.
    rewrite Forall_forall in Hs |- *. intros o Ho. destruct (Hs o Ho) as (kz & Hk & ->).
    cbn [low] in Hk. apply Qmult_le_0_compat; [lra|].
    rewrite Zle_Qle in Hk. exact Hk.
  - discriminate Hf.
  - destruct Hq as [-> | ->]; discriminate Hf.
  - destruct f as [| | | |a c|g]; cbn [fn_sign_preserving] in Hf;
      try (specialize (Hsub _ Hn Hj Hf); cbn [ins_of] in Hsub; unfold nonneg;
           rewrite Forall_forall in Hs |- *; intros o Ho;
           destruct (in_map_v _ _ _ (Hs o Ho)) as (j & Hj1 & Hj2);
           specialize (Hsub j Hj1); unfold nonneg in Hsub; rewrite Forall_forall in Hsub; auto; fail).
    + specialize (Hsub _ Hn Hj Hf). cbn [ins_of] in Hsub. unfold nonneg.
      rewrite Forall_forall in Hs |- *. intros o Ho. destruct (Hs o Ho) as (xs & Hx & ->).
      destruct (Hadd _ _ eq_refl) as [Ha Hc0]. apply add_elem_nonneg; [exact Ha|exact Hc0|].
      eapply one_each_nonneg; [exact Hx|]. intros w Hw. apply in_map_iff in Hw.
      destruct Hw as (j & <- & Hj'). auto.
    + discriminate Hf.
  - discriminate Hf.
  - destruct m as [| | | | | |a c|g]; cbn [meth_sign_preserving] in Hf; try discriminate Hf;
      try (specialize (Hsub _ Hn Hj Hf); cbn [ins_of] in Hsub; unfold nonneg;
           rewrite Forall_forall in Hs |- *; intros o Ho;
           destruct (in_map_v _ _ _ (Hs o Ho)) as (j & Hj1 & Hj2);
           specialize (Hsub j Hj1); unfold nonneg in Hsub; rewrite Forall_forall in Hsub; auto; fail).
    specialize (Hsub _ Hn Hj Hf). cbn [ins_of] in Hsub. unfold nonneg.
    rewrite Forall_forall in Hs |- *. intros o Ho. destruct (Hs o Ho) as (xs & Hx & ->).
    destruct (Hadd _ _ eq_refl) as [Ha Hc0]. apply add_elem_nonneg; [exact Ha|exact Hc0|].
    eapply one_each_nonneg; [exact Hx|]. intros w Hw. apply in_map_iff in Hw.
    destruct Hw as (j & <- & Hj'). auto.
  - discriminate Hf.
Qed.

(** * C53 *)

(** On covered graphs a requantizer is created unsigned only when every element of every operand
    of the node is non-negative, in every execution. *)
Theorem C53_unsigned_requantizer_operands_nonneg s v i o :
  topo (nodes s) -> execution s v -> find_node (nodes s) i = Some o ->
  (forall j, In j (ins_of o) -> sign_covered s j) ->
  are_inputs_unsigned s o = true ->
  forall j, In j (ins_of o) -> nonneg (v j).
Proof.
  intros Ht He Ho Hc Hu j Hj. unfold are_inputs_unsigned in Hu.
  eapply unsigned_sound; [exact Ht|exact He| |exact Hu|].
  - intros j' Hj'. unfold all_input_nodes in Hj'. rewrite dedup_in in Hj'. split; [auto|].
    pose proof (Ht _ _ Ho _ Hj'). pose proof (pos_found _ _ _ Ho). lia.
  - unfold all_input_nodes. rewrite dedup_in. exact Hj.
Qed.

(** Hence the sum the requantizer receives is non-negative as well and is not clipped at zero. *)
Corollary C53_unsigned_requantizer_sum_nonneg s v i a c ins :
  topo (nodes s) -> execution s v ->
  (find_node (nodes s) i = Some (OFn (FAdd a c) ins) \/ find_node (nodes s) i = Some (OMeth (MAdd a c) ins)) ->
  (forall j, In j ins -> sign_covered s j) -> (0 <= a)%Q -> (0 <= c)%Q ->
  are_inputs_unsigned s (OFn (FAdd a c) ins) = true ->
  nonneg (v i).
Proof.
  intros Ht He Ho Hc Ha Hc0 Hu.
  assert (Hj : forall j, In j ins -> nonneg (v j)).
  { destruct Ho as [Ho|Ho];
      [exact (C53_unsigned_requantizer_operands_nonneg s v i _ Ht He Ho Hc Hu)
      |exact (C53_unsigned_requantizer_operands_nonneg s v i _ Ht He Ho Hc Hu)]. }
  assert (Hs : Forall (fun o => exists xs, one_each (map v ins) xs /\ (o == add_elem a c xs)%Q) (v i)).
  { destruct Ho as [Ho|Ho]; exact (He _ _ Ho). }
  unfold nonneg. rewrite Forall_forall in Hs |- *. intros o Hoo. destruct (Hs o Hoo) as (xs & Hx & ->).
  apply add_elem_nonneg; [exact Ha|exact Hc0|]. eapply one_each_nonneg; [exact Hx|].
  intros w Hw. apply in_map_iff in Hw. destruct Hw as (j & <- & Hj'). auto.
Qed.

(** Conversely, operands that all trace back to unsigned activations through sign preserving
    operations give an unsigned requantizer. *)
Inductive from_unsigned (s : st) : nat -> Prop :=
| FU_act i m ins f : find_node (nodes s) i = Some (OModule m ins) ->
    get_module s m = Some (FpAct true true f) -> from_unsigned s i
| FU_q i m ins q : find_node (nodes s) i = Some (OModule m ins) ->
    get_module s m = Some (QAct q) -> q_insigned q = None -> from_unsigned s i
| FU_pass i m ins p f : find_node (nodes s) i = Some (OModule m ins) ->
    get_module s m = Some (Pass p f) -> (forall j, In j ins -> from_unsigned s j) -> from_unsigned s i
| FU_fn i f ins : find_node (nodes s) i = Some (OFn f ins) ->
    (forall g, f <> FOther g) -> (forall j, In j ins -> from_unsigned s j) -> from_unsigned s i
| FU_meth i m ins : find_node (nodes s) i = Some (OMeth m ins) ->
    (forall g, m <> MOther g) -> m <> MTranspose ->
    (forall j, In j ins -> from_unsigned s j) -> from_unsigned s i.

Lemma forallb_flat_map_intro {A B} (p : B -> bool) (f : A -> list B) l :
  (forall x, In x l -> forallb p (f x) = true) -> forallb p (flat_map f l) = true.
Proof.
  induction l as [|a l IH]; intros H; [reflexivity|].
  cbn [flat_map]. rewrite List.forallb_app, (H a (or_introl eq_refl)), IH; [reflexivity|].
  intros x Hx. apply H. right; exact Hx.
Qed.

Theorem C53_unsigned_operands_give_unsigned_requantizer s o :
  (forall j, In j (ins_of o) -> from_unsigned s j) -> are_inputs_unsigned s o = true.
Proof.
  intros H. unfold are_inputs_unsigned, all_input_nodes.
  assert (G : forall fuel ins, (forall j, In j ins -> from_unsigned s j) ->
              forallb (fun b => b) (unsigned_list fuel s ins) = true).
  { induction fuel as [|k IH]; intros ins Hi; [reflexivity|].
    cbn [unsigned_list]. apply forallb_flat_map_intro. intros i Hin.
    destruct (Hi i Hin) as [i m ins' f Hn Hm|i m ins' q Hn Hm Hq|i m ins' p f Hn Hm Hj
                           |i f ins' Hn Hf Hj|i m ins' Hn Hf Hf' Hj]; rewrite Hn.
    - rewrite Hm. reflexivity.
    - rewrite Hm, Hq. reflexivity.
    - rewrite Hm. apply IH. intros j Hj'. unfold all_input_nodes in Hj'. rewrite dedup_in in Hj'. auto.
    - destruct (fn_sign_preserving f) eqn:E.
      + apply IH. intros j Hj'. unfold all_input_nodes in Hj'. rewrite dedup_in in Hj'. auto.
      + destruct f; try discriminate E. exfalso. eapply Hf; reflexivity.
    - destruct (meth_sign_preserving m) eqn:E.
      + apply IH. intros j Hj'. unfold all_input_nodes in Hj'. rewrite dedup_in in Hj'. auto.
      + destruct m; try discriminate E; exfalso; [apply Hf'; reflexivity|eapply Hf; reflexivity]. }
  apply G. intros j Hj. rewrite dedup_in in Hj. auto.
Qed.

(** A convolution (or any module without an input quantizer) among the operands makes it signed. *)
Theorem C53_unknown_operand_gives_signed_requantizer s o j m ins b f :
  nodes s <> [] -> In j (ins_of o) -> find_node (nodes s) j = Some (OModule m ins) ->
  get_module s m = Some (Other None b f) -> are_inputs_unsigned s o = false.
Proof.
  intros Hne Hj Hn Hm. unfold are_inputs_unsigned.
  destruct (nodes s) as [|n0 ns] eqn:En; [congruence|]. cbn [length unsigned_list].
  match goal with |- forallb _ (flat_map ?g ?l) = false =>
    destruct (forallb (fun b => b) (flat_map g l)) eqn:E; [|reflexivity];
    pose proof (forallb_flat_map _ _ _ E j) as Hf end.
  cbv beta in Hf. rewrite En in Hf. rewrite Hn, Hm in Hf. 
  specialize (Hf ltac:(unfold all_input_nodes; rewrite dedup_in; exact Hj)). discriminate Hf.
Qed.

(** ** Where it is false *)
Definition std_map : idmap := IdMap (Ident None 8) (Ident None 8).
Definition relu_conv_mods (k : nat) : module :=
  match k with 0 => Other None false 100 | 1 => FpAct true true 200 | _ => Other None false 101 end.
(** x + relu(conv(x)). *)
Definition skip_graph : st :=
  ST [(0, OPlaceholder); (1, OModule (MOrig 0) [0]); (2, OModule (MOrig 1) [1]);
      (3, OFn (FAdd 1 0) [0; 2]); (4, OOutput [3])]
     [(MOrig 0, 0); (MOrig 1, 1)] relu_conv_mods (fun _ => TQ 0 0 false 8) 10.
Definition std_acts (f : nat) : option (bool * Z) := if f =? 200 then Some (false, 8%Z) else None.

(** After [quantize], the quantizer of the network's input, created signed, is unsigned: negative
    inputs are clipped to zero. *)
Theorem C53_graph_input_quantizer_becomes_unsigned_refuted :
  exists s s' q, quantize_front std_map std_acts (fun _ => false) 9 s = Some s' /\
    In (0, OPlaceholder) (nodes s) /\
    get_module s' (MIn 0) = Some (QAct q) /\ t_signed (tqs s' (q_tq q)) = false /\
    (* before the alignment it was signed *)
    exists q0, get_module (inp_placeholder_handler std_map s) (MIn 0) = Some (QAct q0) /\
      t_signed (tqs (inp_placeholder_handler std_map s) (q_tq q0)) = true.
Proof.
  exists skip_graph.
  destruct (quantize_front std_map std_acts (fun _ => false) 9 skip_graph) as [s'|] eqn:E;
    [|vm_compute in E; discriminate E].
  destruct (get_module s' (MIn 0)) as [[ | |q| | ]|] eqn:G;
    try (vm_compute in E; injection E as <-; vm_compute in G; discriminate G).
  exists s', q. split; [reflexivity|]. split; [left; reflexivity|]. split; [exact G|].
  vm_compute in E. injection E as <-. vm_compute in G. injection G as <-. split; [reflexivity|].
  destruct (get_module (inp_placeholder_handler std_map skip_graph) (MIn 0)) as [[ | |q0| | ]|] eqn:G0;
    try (vm_compute in G0; discriminate G0).
  exists q0. split; [reflexivity|]. vm_compute in G0. injection G0 as <-. reflexivity.
Qed.

(** Graph inputs and constant operands are ignored by the analysis: [x + relu(x)] before the input
    quantizer is added, and [relu(x) + (-3)], are both taken to be non-negative. *)
Definition act_graph (o : op) : st :=
  ST [(0, OPlaceholder); (1, OModule (MOrig 0) [0]); (2, o)] [(MOrig 0, 0)]
     (fun _ => FpAct true true 200) (fun _ => TQ 0 0 false 8) 10.
Theorem C53_placeholders_and_constants_ignored_refuted :
  (exists v, execution (act_graph (OFn (FAdd 1 0) [0; 1])) v /\
     topo (nodes (act_graph (OFn (FAdd 1 0) [0; 1]))) /\
     are_inputs_unsigned (act_graph (OFn (FAdd 1 0) [0; 1])) (OFn (FAdd 1 0) [0; 1]) = true /\
     ~ nonneg (v 0) /\ ~ nonneg (v 2)) /\
  (exists v, execution (act_graph (OFn (FAdd 1 (-3)) [1])) v /\
     topo (nodes (act_graph (OFn (FAdd 1 (-3)) [1]))) /\
     are_inputs_unsigned (act_graph (OFn (FAdd 1 (-3)) [1])) (OFn (FAdd 1 (-3)) [1]) = true /\
     nonneg (v 1) /\ ~ nonneg (v 2)).
Proof.
  assert (T : forall o, (forall j, In j (ins_of o) -> j < 2) -> topo (nodes (act_graph o))).
  { intros o Ho i o' Hf j Hj. unfold find_node in Hf. cbn in Hf.
    destruct i as [|[|[|i]]]; cbn in Hf; try discriminate Hf; injection Hf as <-.
    - destruct Hj.
    - destruct Hj as [<-|[]]. cbn. lia.
    - specialize (Ho j Hj). destruct j as [|[|j]]; cbn; lia. }
  assert (N : forall x, ~ (0 <= x)%Q -> ~ nonneg [x]).
  { intros x Hx H. inversion_clear H. auto. }
  split.
  - exists (fun i => match i with 0 => [-5]%Q | 1 => [0]%Q | _ => [-5]%Q end).
    split; [|split; [|split; [reflexivity|split; apply N; lra]]].
    + intros i o Hf. unfold find_node in Hf. cbn in Hf.
      destruct i as [|[|[|i]]]; cbn in Hf; try discriminate Hf; injection Hf as <-; cbn.
      * exact I.
      * intros _. constructor; [lra|constructor].
      * constructor; [|constructor]. exists [-5; 0]%Q. split; [|cbn; lra].
        repeat constructor.
    + apply T. cbn. lia.
  - exists (fun i => match i with 0 => [-5]%Q | 1 => [0]%Q | _ => [-3]%Q end).
    split; [|split; [|split; [reflexivity|split]]].
    + intros i o Hf. unfold find_node in Hf. cbn in Hf.
      destruct i as [|[|[|i]]]; cbn in Hf; try discriminate Hf; injection Hf as <-; cbn.
      * exact I.
      * intros _. constructor; [lra|constructor].
      * constructor; [|constructor]. exists [0]%Q. split; [|cbn; lra]. repeat constructor.
    + apply T. cbn. lia.
    + constructor; [lra|constructor].
    + apply N. lra.
Qed.

(** A covered graph: relu(a) + maxpool(relu(b)); the hypotheses of the theorems hold. *)
Definition good_graph : st :=
  ST [(0, OPlaceholder); (1, OModule (MOrig 0) [0]); (2, OModule (MOrig 1) [0]);
      (3, OModule (MOrig 2) [2]); (4, OFn (FAdd 1 0) [1; 3])]
     [(MOrig 0, 0); (MOrig 1, 0); (MOrig 2, 2)]
     (fun k => match k with 0 => FpAct true true 200 | _ => Pass true 300 end)
     (fun _ => TQ 0 0 false 8) 10.
Example C53_example :
  topo (nodes good_graph) /\ (forall j, In j [1; 3] -> sign_covered good_graph j) /\
  are_inputs_unsigned good_graph (OFn (FAdd 1 0) [1; 3]) = true /\
  execution good_graph (fun i => match i with 0 => [-5; 2]%Q | 1 | 2 => [0; 2]%Q | 3 => [2]%Q | _ => [2; 4]%Q end).
Proof.
  split; [|split; [|split; [reflexivity|]]].
  - intros i o Hf j Hj. unfold find_node in Hf. cbn in Hf.
    destruct i as [|[|[|[|[|i]]]]]; cbn in Hf; try discriminate Hf; injection Hf as <-; cbn in Hj;
      repeat (destruct Hj as [<-|Hj]; [cbn; lia|]); destruct Hj.
  - intros j [<-|[<-|[]]].
    + eapply SC_act; reflexivity.
    + eapply SC_pass; [reflexivity|reflexivity|]. intros j [<-|[]]. eapply SC_act; reflexivity.
  - intros i o Hf. unfold find_node in Hf. cbn in Hf.
    destruct i as [|[|[|[|[|i]]]]]; cbn in Hf; try discriminate Hf; injection Hf as <-; cbn.
    + exact I.
    + intros _. repeat (constructor; try lra).
    + intros _. repeat (constructor; try lra).
    + constructor; [|constructor]. exists [1]%Q, [2]%Q.
      split; [repeat (constructor; try lra)|]. split; [|cbn; lra].
      constructor; [|constructor]. exists [0; 2]%Q. cbn; auto.
    + constructor; [|constructor; [|constructor]].
      * exists [0; 2]%Q. split; [|cbn; lra]. constructor; [cbn; auto|]. constructor; [cbn; auto|constructor].
      * exists [2; 2]%Q. split; [|cbn; lra]. constructor; [cbn; auto|]. constructor; [cbn; auto|constructor].
Qed.

Print Assumptions C53_unsigned_requantizer_operands_nonneg.
Print Assumptions C53_unsigned_requantizer_sum_nonneg.
Print Assumptions C53_unsigned_operands_give_unsigned_requantizer.
Print Assumptions C53_unknown_operand_gives_signed_requantizer.
Print Assumptions C53_graph_input_quantizer_becomes_unsigned_refuted.
Print Assumptions C53_placeholders_and_constants_ignored_refuted.
