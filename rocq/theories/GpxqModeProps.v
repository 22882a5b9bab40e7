(** C96: the order in which GPTQ and GPFQ treat the layers.  C97: what the contexts leave of the model's flags. *)
From Coq Require Import String List Bool Arith Lia Permutation Reals Lra.
From Verif Require Import Calibrate CalibrateProps GpxqMode GpxqModeProofs.
Import ListNotations.
Open Scope list_scope.
Open Scope nat_scope.

(** ** The groups *)
(** Every supported layer gets one hook, with the size of its group, provided no joined name of a group is
    the name of another supported layer. *)
Lemma has_key_app k a b : has_key k (a ++ b) = has_key k a || has_key k b.
Proof. apply existsb_app. Qed.
Lemma has_key_in k (d : dict) : has_key k d = true <-> In k (map fst d).
Proof.
  unfold has_key. rewrite existsb_exists, in_map_iff. split; intros (x & H1 & H2).
  - apply String.eqb_eq in H2. exists x. split; assumption.
  - exists x. split; [exact H2|]. rewrite H1. apply String.eqb_refl.
Qed.
Lemma del_all_ok g : forall d, NoDup g -> (forall n, In n g -> In n (map fst d)) -> del_all g d = Some (filter (fun e => negb (mem (fst e) g)) d).
Proof.
  induction g as [|n g IH]; intros d N H; cbn [del_all].
  - f_equal. unfold mem. cbn [existsb negb]. clear H. induction d as [|e d IHd]; [reflexivity|]. cbn [filter]. f_equal. exact IHd.
  - inversion N as [|? ? N1 N2]; subst. rewrite (proj2 (has_key_in n d)) by (apply H; left; reflexivity). rewrite IH; [|exact N2|].
    + f_equal. unfold del_key. clear. induction d as [|[k v] d IH]; [reflexivity|]. cbn [filter fst]. unfold mem at 2. cbn [existsb]. destruct (String.eqb k n); cbn [negb orb]; [exact IH|]. cbn [filter fst]. unfold mem at 1. destruct (negb (existsb (String.eqb k) g)); [f_equal; exact IH|exact IH].
    + intros m Hm. assert (Hd : In m (map fst d)) by (apply H; right; exact Hm). apply in_map_iff in Hd. destruct Hd as (e & <- & He). apply in_map_iff. exists e. split; [reflexivity|]. apply filter_In. split; [exact He|]. destruct (String.eqb_spec (fst e) n) as [E|]; [rewrite E in Hm; contradiction|reflexivity].
Qed.
Definition single (n : string) : string * list string := (n, [n]).
Definition joined (g : list string) : string * list string := (join g, g).
Lemma filter_all {A} (f : A -> bool) l : (forall x, In x l -> f x = true) -> filter f l = l.
Proof. induction l as [|x l IH]; intros H; [reflexivity|]. cbn [filter]. rewrite (H x (or_introl eq_refl)). f_equal. apply IH. intros y Hy. apply H. right. exact Hy. Qed.
Lemma filter_ext_in' {A} (f g : A -> bool) l : (forall x, In x l -> f x = g x) -> filter f l = filter g l.
Proof. induction l as [|x l IH]; intros H; [reflexivity|]. cbn [filter]. rewrite (H x (or_introl eq_refl)). rewrite IH by (intros y Hy; apply H; right; exact Hy). reflexivity. Qed.
Lemma NoDup_app_inv {A} (a b : list A) : NoDup (a ++ b) -> NoDup a /\ NoDup b /\ forall x, In x a -> ~ In x b.
Proof.
  induction a as [|x a IH]; intros H; [repeat split; [constructor|exact H|intros x []]|]. cbn [app] in H. inversion H as [|? ? H1 H2]; subst. destruct (IH H2) as (A1 & A2 & A3). repeat split; [|exact A2|].
  - constructor; [intros K; apply H1; apply in_or_app; left; exact K|exact A1].
  - intros y [<-|Hy]; [intros K; apply H1; apply in_or_app; right; exact K|apply A3; exact Hy].
Qed.
Lemma group_ok modules sup : incl sup modules -> forall gs done S,
  NoDup (concat (done ++ gs)) -> NoDup (map join (done ++ gs)) -> (forall g n, In g (done ++ gs) -> In n g -> In n sup) -> (forall g, In g (done ++ gs) -> In (join g) sup -> In (join g) g) ->
  (forall n, In n S <-> In n sup /\ ~ In n (concat done)) ->
  group modules gs (map single S ++ map joined done) = Some (map single (filter (fun n => negb (mem n (concat gs))) S) ++ map joined (done ++ gs)).
Proof.
  intros Inc. induction gs as [|g gs IH]; intros done S Nc Nj Hs Hj HS; cbn [group].
  - rewrite app_nil_r. f_equal. f_equal. f_equal. symmetry. apply filter_all. intros x _. reflexivity.
  - assert (Pc : NoDup (concat done ++ g ++ concat gs)) by (rewrite concat_app in Nc; exact Nc). destruct (NoDup_app_inv _ _ Pc) as (_ & Pg & Pd). destruct (NoDup_app_inv _ _ Pg) as (Ng & _ & Dg).
    assert (Gin : In g (done ++ g :: gs)) by (apply in_or_app; right; left; reflexivity).
    assert (Mem : forall n, In n g -> In n S) by (intros n Hn; apply HS; split; [exact (Hs g n Gin Hn)|]; intros K; apply (Pd n K); apply in_or_app; left; exact Hn).
    rewrite del_all_ok; [|exact Ng|].
    2:{ intros n Hn. rewrite map_app. apply in_or_app. left. rewrite map_map. apply in_map_iff. exists n. split; [reflexivity|exact (Mem n Hn)]. }
    assert (FA : forallb (fun n => existsb (String.eqb n) modules) g = true) by (apply forallb_forall; intros n Hn; apply mem_in; apply Inc; exact (Hs g n Gin Hn)). rewrite FA.
    rewrite filter_app. set (S' := filter (fun n => negb (mem n g)) S).
    assert (E1 : filter (fun e => negb (mem (fst e) g)) (map single S) = map single S').
    { unfold S'. clear. induction S as [|n S IH]; [reflexivity|]. cbn [map filter single fst]. destruct (negb (mem n g)); [cbn [map]; f_equal; exact IH|exact IH]. }
    assert (E2 : filter (fun e => negb (mem (fst e) g)) (map joined done) = map joined done).
    { apply filter_all. intros e He. apply in_map_iff in He. destruct He as (g0 & <- & Hg0). cbn [joined fst]. apply negb_true_iff. apply mem_not. intros K. assert (In (join g0) g0) by (apply Hj; [apply in_or_app; left; exact Hg0|exact (Hs g _ Gin K)]).
      apply (Pd (join g0)); [apply in_concat; exists g0; split; assumption|apply in_or_app; left; exact K]. }
    rewrite E1, E2. unfold set_key. assert (K0 : has_key (join g) (map single S' ++ map joined done) = false).
    { destruct (has_key (join g) _) eqn:K; [|reflexivity]. exfalso. apply has_key_in in K. rewrite map_app in K. apply in_app_or in K. destruct K as [K|K]; rewrite map_map in K; apply in_map_iff in K; destruct K as (x & Ex & Hx); cbn [single joined fst] in Ex.
      - subst x. unfold S' in Hx. apply filter_In in Hx. destruct Hx as [Hx1 Hx2]. apply HS in Hx1. apply negb_true_iff, mem_not in Hx2. apply Hx2. apply Hj; [exact Gin|apply Hx1].
      - rewrite map_app in Nj. destruct (NoDup_app_inv _ _ Nj) as (_ & _ & D). apply (D (join g)); [rewrite <- Ex; apply in_map; exact Hx|left; reflexivity]. }
    rewrite K0. rewrite <- app_assoc. change (map joined done ++ [(join g, g)]) with (map joined done ++ map joined [g]). rewrite <- map_app.
    rewrite IH; rewrite <- ?app_assoc; cbn [app]; try assumption.
    + f_equal. f_equal. f_equal. unfold S'. clear. induction S as [|n S IH]; [reflexivity|]. cbn [filter concat]. rewrite mem_app. destruct (mem n g); cbn [negb orb filter]; [exact IH|]. destruct (mem n (concat gs)); cbn [negb]; [exact IH|f_equal; exact IH].
    + intros n. unfold S'. rewrite filter_In, HS, negb_true_iff, mem_not. rewrite concat_app. cbn [concat]. rewrite app_nil_r. rewrite in_app_iff. tauto.
Qed.
Theorem C96_enter modules supported groups :
  NoDup modules -> NoDup (concat groups) -> NoDup (map join groups) -> (forall g n, In g groups -> In n g -> In n (filter supported modules)) ->
  (forall g, In g groups -> In (join g) (filter supported modules) -> In (join g) g) ->
  exists d, layers_dict modules supported groups = Some d /\ Permutation (map fst (registrations supported d)) (filter supported modules)
  /\ length d = length groups + length (filter (fun n => negb (mem n (concat groups))) (filter supported modules))
  /\ (forall g n, In g groups -> In n g -> In (n, length g) (registrations supported d))
  /\ (forall n, In n (filter supported modules) -> ~ In n (concat groups) -> In (n, 1) (registrations supported d)).
Proof.
  intros Nm Nc Nj Hs Hj. set (sup := filter supported modules) in *. assert (Ns : NoDup sup) by (apply NoDup_filter; exact Nm).
  set (rest := filter (fun n => negb (mem n (concat groups))) sup). exists (map single rest ++ map joined groups). split.
  { unfold layers_dict. fold sup. pose proof (group_ok modules sup ltac:(intros x Hx; apply filter_In in Hx; apply Hx) groups [] sup Nc Nj Hs Hj ltac:(intros n; cbn [concat]; split; [intros H; split; [exact H|intros []]|intros [H _]; exact H])) as G.
    cbn [map app] in G. rewrite app_nil_r in G. exact G. }
  assert (Sup : forall n, In n sup -> supported n = true) by (intros n Hn; apply filter_In in Hn; apply Hn).
  assert (R : registrations supported (map single rest ++ map joined groups) = map (fun n => (n, 1)) rest ++ flat_map (fun g => map (fun n => (n, length g)) g) groups).
  { unfold registrations. rewrite flat_map_app. f_equal.
    - assert (X : forall l, (forall n, In n l -> supported n = true) -> flat_map (fun e : string * list string => map (fun n => (n, length (snd e))) (filter supported (snd e))) (map single l) = map (fun n => (n, 1)) l).
      { induction l as [|n l IH]; intros H; [reflexivity|]. cbn [map flat_map single snd filter]. rewrite (H n (or_introl eq_refl)). cbn [map length app]. f_equal. apply IH. intros m Hm. apply H. right. exact Hm. }
      apply X. intros n Hn. apply filter_In in Hn. apply Sup. apply Hn.
    - clear - Hs Sup. induction groups as [|g groups IH]; [reflexivity|]. cbn [map flat_map joined snd]. rewrite filter_all by (intros n Hn; apply Sup; apply (Hs g); [left; reflexivity|exact Hn]). f_equal. apply IH. intros g' n Hg. apply (Hs g' n). right. exact Hg. }
  rewrite R. assert (Mf : map fst (map (fun n => (n, 1)) rest ++ flat_map (fun g => map (fun n => (n, length g)) g) groups) = rest ++ concat groups).
  { rewrite map_app, map_map. cbn [fst]. rewrite map_id. f_equal. clear. induction groups as [|g groups IH]; [reflexivity|]. cbn [flat_map concat]. rewrite map_app, map_map. cbn [fst]. rewrite map_id. f_equal. exact IH. }
  split; [|split; [|split]].
  - rewrite Mf. apply NoDup_Permutation; [| exact Ns|].
    + assert (Nr : NoDup rest) by (apply NoDup_filter; exact Ns). clear - Nr Nc. assert (D : forall x, In x rest -> ~ In x (concat groups)) by (intros x Hx; apply filter_In in Hx; destruct Hx as [_ Hx]; apply negb_true_iff, mem_not in Hx; exact Hx).
      clearbody rest. induction rest as [|n r IH]; [exact Nc|]. inversion Nr; subst. cbn [app]. constructor; [|apply IH; [assumption|intros x Hx; apply D; right; exact Hx]]. intros K. apply in_app_or in K. destruct K as [K|K]; [contradiction|]. apply (D n); [left; reflexivity|exact K].
    + intros n. rewrite in_app_iff. unfold rest. rewrite filter_In, negb_true_iff, mem_not. split.
      * intros [[H _]|H]; [exact H|]. apply in_concat in H. destruct H as (g & Hg & Hn). exact (Hs g n Hg Hn).
      * intros H. destruct (in_dec string_dec n (concat groups)) as [K|K]; [right; exact K|left; split; assumption].
  - rewrite app_length, !map_length. lia.
  - intros g n Hg Hn. apply in_or_app. right. apply in_flat_map. exists g. split; [exact Hg|]. apply (in_map (fun n => (n, length g))). exact Hn.
  - intros n Hn K. apply in_or_app. left. apply (in_map (fun n => (n, 1))). apply filter_In. split; [exact Hn|]. apply negb_true_iff, mem_not. exact K.
Qed.

Section Mode.
Context {W I B O : Type}.
Variable calls : list string.
Variable input : bool -> B -> nat -> (string -> W) -> I.
Variable output : bool -> B -> (string -> W) -> O.
Variable solve : string -> list (bool * I) -> W -> W.
(** The input of a call depends on the weights of the layers called before it. *)
Hypothesis input_local : forall q b j w w', (forall n, In n (firstn j calls) -> w n = w' n) -> input q b j w = input q b j w'.

(** ** The schedule: the calls of the layers not yet treated start with the members of one group, which
    are called one after the other. *)
Definition todo (regs : list (string * nat)) (done : list string) (n : string) : bool := hooked regs n && negb (mem n done).
Inductive schedule (regs : list (string * nat)) : list string -> list (list string) -> Prop :=
| sched_nil done : filter (todo regs done) calls = [] -> schedule regs done []
| sched_cons done g gs rest : NoDup g -> g <> [] -> filter (todo regs done) calls = g ++ rest -> (forall n, In n g -> hook_of n regs = Some (length g)) ->
    schedule regs (done ++ g) gs -> schedule regs done (g :: gs).
(** What a layer is given: the inputs of its first call, for every batch and pass. *)
Definition given (passes : list bool) (bs : list B) (w : string -> W) (o : string -> option W) (n : string) : list (bool * I) :=
  flat_map (fun b => map (fun q => (q, input q b (first_pos n calls) (view q w o))) passes) bs.
Definition stage (passes : list bool) (o : string -> option W) (g : list string) (bs : list B) (w : string -> W) : string -> W :=
  fun n => if mem n g then solve n (given passes bs w o n) (w n) else w n.
Fixpoint stages (passes : list bool) (o : string -> option W) (gs : list (list string)) (bss : list (list B)) (w : string -> W) : string -> W :=
  match gs, bss with
  | g :: gs, bs :: bss => stages passes o gs bss (stage passes o g bs w)
  | _, _ => w
  end.
Lemma view_ext q (w w' : string -> W) o n : w n = w' n -> view q w o n = view q w' o n.
Proof. intros E. unfold view. destruct q; [exact E|]. destruct (o n); [reflexivity|exact E]. Qed.
Lemma given_ext passes bs w w' o n : (forall m, In m (firstn (first_pos n calls) calls) -> w m = w' m) -> given passes bs w o n = given passes bs w' o n.
Proof.
  intros H. unfold given. induction bs as [|b bs IH]; [reflexivity|]. cbn [flat_map]. f_equal; [|exact IH]. apply map_ext. intros q. f_equal. apply input_local. intros m Hm. apply view_ext. apply H. exact Hm.
Qed.
Lemma stage_ext passes o g bs w w' n : (forall m, w m = w' m) -> stage passes o g bs w n = stage passes o g bs w' n.
Proof. intros H. unfold stage. rewrite (H n). destruct (mem n g); [|reflexivity]. rewrite (given_ext passes bs w w' o n); [reflexivity|]. intros m _. apply H. Qed.
Lemma stages_ext passes o gs : forall bss w w', (forall m, w m = w' m) -> forall n, stages passes o gs bss w n = stages passes o gs bss w' n.
Proof.
  induction gs as [|g gs IH]; intros [|bs bss] w w' H n; cbn [stages]; try apply H. apply IH. intros m. apply stage_ext. exact H.
Qed.
Definition minus (regs : list (string * nat)) (done : list string) : list (string * nat) := filter (fun e => negb (mem (fst e) done)) regs.
Lemma hook_of_minus regs done n : hook_of n (minus regs done) = if mem n done then None else hook_of n regs.
Proof.
  unfold hook_of, minus. induction regs as [|[k v] regs IH]; cbn [filter find fst]; [destruct (mem n done); reflexivity|]. destruct (mem k done) eqn:M; cbn [negb].
  - rewrite IH. destruct (String.eqb_spec k n) as [->|]; [rewrite M; reflexivity|reflexivity].
  - cbn [find fst]. destruct (String.eqb_spec k n) as [->|]; [rewrite M; reflexivity|exact IH].
Qed.
Lemma hooked_minus regs done n : hooked (minus regs done) n = todo regs done n.
Proof. unfold hooked, todo. rewrite hook_of_minus. unfold hooked. destruct (mem n done); cbn [negb]; [rewrite andb_false_r|rewrite andb_true_r]; reflexivity. Qed.
Lemma minus_app regs a b : minus (minus regs a) b = minus regs (a ++ b).
Proof. unfold minus. induction regs as [|[k v] regs IH]; [reflexivity|]. cbn [filter fst]. rewrite mem_app. destruct (mem k a); cbn [negb orb filter fst]; [exact IH|]. destruct (mem k b); cbn [negb]; [exact IH|f_equal; exact IH]. Qed.
Definition between (regs : list (string * nat)) (done : list string) (st : @state W I) : Prop :=
  hooks st = minus regs done /\ names st = [] /\ count st = 0 /\ forall n, ~ In n done -> collected st n = [].
Lemma todo_in regs done n : todo regs done n = true -> ~ In n done.
Proof. unfold todo. intros H. apply andb_prop in H. destruct H as [_ H]. apply negb_true_iff, mem_not in H. exact H. Qed.
Lemma group_todo regs done g rest n : filter (todo regs done) calls = g ++ rest -> In n g -> todo regs done n = true /\ In n calls.
Proof. intros F H. assert (K : In n (filter (todo regs done) calls)) by (rewrite F; apply in_or_app; left; exact H). apply filter_In in K. tauto. Qed.
Lemma iteration_spec passes ret regs done g rest bs st : passes <> [] -> bs <> [] -> between regs done st -> NoDup g -> g <> [] -> filter (todo regs done) calls = g ++ rest -> (forall n, In n g -> hook_of n regs = Some (length g)) ->
  let st' := iteration calls input output solve passes ret bs st in
  between regs (done ++ g) st' /\ weight_orig st' = weight_orig st /\ forall n, weight st' n = stage passes (weight_orig st) g bs (weight st) n.
Proof.
  intros Np Nb (H1 & H2 & H3 & H4) N Ne F L. assert (R : ready calls g st).
  { unfold ready. rewrite H1. repeat split; try assumption; [exists rest; rewrite <- F; apply filter_ext; intros n; apply hooked_minus| |left; exact H2].
    intros n Hn. rewrite hook_of_minus. destruct (group_todo _ _ _ _ _ F Hn) as [T _]. rewrite (proj2 (mem_not n done) (todo_in _ _ _ T)). apply L. exact Hn. }
  pose proof (batches_spec calls input output passes ret g Np bs st R) as P. cbv zeta in P |- *. unfold iteration, update. set (st1 := fold_left _ bs st) in *. clearbody st1. destruct P as (P1 & P2 & P3 & P4 & P5 & P6).
  assert (E1 : names st1 = g) by (rewrite P5; destruct bs; [congruence|reflexivity]). pose proof (update_fold solve g st1 N) as U. cbv zeta in U. rewrite E1. set (st2 := fold_left _ g st1) in *. clearbody st2. destruct U as (U1 & U2 & U3 & U4 & U5).
  split; [|split].
  - split; [|split; [reflexivity|split]]; cbn [hooks names count collected].
    + rewrite U4, P3, H1. apply minus_app.
    + congruence.
    + intros n Hn. rewrite U3, P6. assert (M : mem n g = false) by (apply mem_not; intros K; apply Hn; apply in_or_app; right; exact K). rewrite M. apply H4. intros K. apply Hn. apply in_or_app. left. exact K.
  - cbn [weight_orig]. congruence.
  - intros n. cbn [weight]. rewrite U5. unfold stage. rewrite P1. destruct (mem n g) eqn:M; [|reflexivity]. rewrite P6, M. rewrite H4 by (apply mem_in in M; destruct (group_todo _ _ _ _ _ F M) as [T _]; exact (todo_in _ _ _ T)). reflexivity.
Qed.
Lemma iteration_idle passes ret regs done bs st : between regs done st -> filter (todo regs done) calls = [] -> iteration calls input output solve passes ret bs st = st.
Proof.
  intros (H1 & H2 & H3 & H4) F. unfold iteration. rewrite batches_none; [|rewrite H1; rewrite <- F; apply filter_ext; intros n; apply hooked_minus]. unfold update. rewrite H2. cbn [fold_left]. destruct st as [w0 o0 h0 n0 c0 l0]. cbn [weight weight_orig hooks count collected names] in *. rewrite H2. reflexivity.
Qed.
Lemma loop_spec passes ret regs : passes <> [] -> forall gs done, schedule regs done gs -> forall bss st, length gs <= length bss -> Forall (fun bs => bs <> []) bss -> between regs done st ->
  let st' := loop calls input output solve passes ret bss st in
  between regs (done ++ concat gs) st' /\ weight_orig st' = weight_orig st /\ forall n, weight st' n = stages passes (weight_orig st) gs bss (weight st) n.
Proof.
  intros Np gs done S. induction S as [done F|done g gs rest N Ne F L S IH]; intros bss st Lb Fb Bt.
  - cbn [concat]. rewrite app_nil_r. assert (E : loop calls input output solve passes ret bss st = st).
    { clear Lb Fb. induction bss as [|bs bss IHb]; [reflexivity|]. unfold loop in *. cbn [fold_left]. rewrite (iteration_idle _ _ _ _ _ _ Bt F). exact IHb. }
    rewrite E. split; [exact Bt|]. split; [reflexivity|]. intros n. destruct bss; reflexivity.
  - destruct bss as [|bs bss]; [cbn [length] in Lb; lia|]. cbn [length] in Lb. inversion Fb as [|? ? Fb1 Fb2]; subst. unfold loop. cbn [fold_left]. pose proof (iteration_spec passes ret regs done g rest bs st Np Fb1 Bt N Ne F L) as Q. cbv zeta in Q.
    set (st1 := iteration calls input output solve passes ret bs st) in *. clearbody st1. destruct Q as (Q1 & Q2 & Q3). specialize (IH bss st1 ltac:(lia) Fb2 Q1). cbv zeta in IH. destruct IH as (I1 & I2 & I3). unfold loop in *. cbn [concat]. rewrite app_assoc.
    split; [exact I1|]. split; [congruence|]. intros n. rewrite I3. cbn [stages]. rewrite Q2. apply stages_ext. exact Q3.
Qed.
Lemma before_first n cs : forall m, In m (firstn (first_pos n cs) cs) -> m <> n.
Proof.
  induction cs as [|c cs IH]; intros m H; [destruct H|]. cbn [first_pos] in H. destruct (String.eqb_spec c n) as [|D]; [destruct H|]. cbn [firstn] in H. destruct H as [<-|H]; [exact D|exact (IH m H)].
Qed.
(** Calls before the first call of a member of the next group are of members, of layers treated, or of others. *)
Lemma before_group f g : forall cs rest n m, filter f cs = g ++ rest -> In n g -> In m (firstn (first_pos n cs) cs) -> f m = true -> In m g.
Proof.
  induction g as [|x g IHg]; intros cs rest n m F Hn Hm T; [destruct Hn|]. revert F Hm. induction cs as [|c cs IHc]; intros F Hm; [discriminate|]. cbn [filter] in F. cbn [first_pos] in Hm. destruct (f c) eqn:Fc.
  - injection F as -> F. destruct (String.eqb_spec x n) as [|D]; [destruct Hm|]. cbn [firstn] in Hm. destruct Hm as [<-|Hm]; [left; reflexivity|]. right. destruct Hn as [Hn|Hn]; [congruence|]. exact (IHg cs rest n m F Hn Hm T).
  - destruct (String.eqb_spec c n) as [|D]; [destruct Hm|]. cbn [firstn] in Hm. destruct Hm as [<-|Hm]; [congruence|]. exact (IHc F Hm).
Qed.
Lemma schedule_members regs : forall gs done, schedule regs done gs -> NoDup (concat gs) /\ forall n, In n (concat gs) <-> (In n calls /\ todo regs done n = true).
Proof.
  intros gs done S. induction S as [done F|done g gs rest N Ne F L S [I1 I2]].
  - split; [constructor|]. intros n. split; [intros []|]. intros H. assert (K : In n (filter (todo regs done) calls)) by (apply filter_In; exact H). rewrite F in K. exact K.
  - assert (T : forall n, todo regs (done ++ g) n = true <-> todo regs done n = true /\ ~ In n g).
    { intros n. unfold todo. rewrite mem_app. rewrite <- mem_not. destruct (hooked regs n), (mem n done), (mem n g); cbn; split; intros; try tauto; try (destruct H; congruence); try (split; congruence). }
    split.
    + cbn [concat]. assert (D : forall x, In x g -> ~ In x (concat gs)) by (intros x Hx K; apply I2 in K; destruct K as [_ K]; apply T in K; tauto). clear - N I1 D. induction g as [|x g IH]; [exact I1|]. inversion N; subst. cbn [app]. constructor; [|apply IH; [assumption|intros y Hy; apply D; right; exact Hy]].
      intros K. apply in_app_or in K. destruct K as [K|K]; [contradiction|]. apply (D x); [left; reflexivity|exact K].
    + intros n. cbn [concat]. rewrite in_app_iff, I2, T. split.
      * intros [H|H]; [destruct (group_todo _ _ _ _ _ F H); tauto|tauto].
      * intros [H1 H2]. destruct (in_dec string_dec n g) as [K|K]; [left; exact K|right; tauto].
Qed.
Lemma stages_other passes o gs : forall bss w n, ~ In n (concat gs) -> stages passes o gs bss w n = w n.
Proof.
  induction gs as [|g gs IH]; intros [|bs bss] w n H; cbn [stages]; try reflexivity. cbn [concat] in H. rewrite IH by (intros K; apply H; apply in_or_app; right; exact K). unfold stage. assert (M : mem n g = false) by (apply mem_not; intros K; apply H; apply in_or_app; left; exact K). rewrite M. reflexivity.
Qed.
Lemma stages_fixpoint passes o bs regs : forall gs done, schedule regs done gs -> forall bss w, length gs <= length bss -> Forall (fun x => x = bs) bss ->
  forall g n, In g gs -> In n g -> stages passes o gs bss w n = solve n (given passes bs (fun m => if mem m g then w m else stages passes o gs bss w m) o n) (w n).
Proof.
  intros gs done S. induction S as [done F|done g gs rest N Ne F L S IH]; intros bss w Lb Fb g' n Hg Hn; [destruct Hg|].
  destruct bss as [|bs' bss]; [cbn [length] in Lb; lia|]. cbn [length] in Lb. inversion Fb as [|? ? Fb1 Fb2]; subst. cbn [stages]. destruct (schedule_members regs gs _ S) as [Nd Mm].
  assert (Dg : forall x, In x g -> ~ In x (concat gs)) by (intros x Hx K; apply Mm in K; destruct K as [_ K]; apply todo_in in K; apply K; apply in_or_app; right; exact Hx).
  destruct Hg as [<-|Hg].
  - rewrite (stages_other passes o gs bss _ n) by (apply Dg; exact Hn). unfold stage at 1. rewrite (proj2 (mem_in n g) Hn). f_equal. apply given_ext. intros m Hm. destruct (mem m g) eqn:M; [reflexivity|]. apply mem_not in M.
    assert (T : todo regs done m = false) by (destruct (todo regs done m) eqn:T; [exfalso; apply M; exact (before_group _ g calls rest n m F Hn Hm T)|reflexivity]).
    rewrite stages_other.
    + unfold stage. rewrite (proj2 (mem_not m g) M). reflexivity.
    + intros K. apply Mm in K. destruct K as [_ K]. unfold todo in K, T. rewrite mem_app, negb_orb in K. destruct (hooked regs m), (mem m done); cbn in *; congruence.
  - specialize (IH bss (stage passes o g bs w) ltac:(lia) Fb2 g' n Hg Hn). rewrite IH. assert (Ng : In n (concat gs)) by (apply in_concat; exists g'; split; assumption). assert (Nn : ~ In n g) by (intros K; exact (Dg n K Ng)).
    assert (Es : forall m, ~ In m g -> stage passes o g bs w m = w m) by (intros m Hm; unfold stage; rewrite (proj2 (mem_not m g) Hm); reflexivity). rewrite (Es n Nn). f_equal. apply given_ext. intros m _. destruct (mem m g') eqn:M; [|reflexivity]. apply Es. apply mem_in in M. intros K. apply (Dg m K). apply in_concat. exists g'. split; assumption.
Qed.

(** ** The claims *)
(** With enough iterations over the calibration set [bs], the layers of every group of the schedule are
    updated once, from the inputs they have when all layers called before them already have their final
    weights, except those of their own group, which still have the original ones.  All other weights stay. *)
Theorem C96_groups passes ret create regs w o gs bs k :
  passes <> [] -> bs <> [] -> schedule regs [] gs -> length gs <= k ->
  let st := loop calls input output solve passes ret (repeat bs k) (enter create regs w o) in
  (forall g n, In g gs -> In n g -> weight st n = solve n (given passes bs (fun m => if mem m g then w m else weight st m) (weight_orig st) n) (w n))
  /\ (forall n, ~ (In n calls /\ In n (map fst regs)) -> weight st n = w n).
Proof.
  intros Np Nb S Lk st. assert (Fb : Forall (fun x => x <> []) (repeat bs k)) by (apply Forall_forall; intros x Hx; apply repeat_spec in Hx; subst x; exact Nb).
  assert (Fb' : Forall (fun x => x = bs) (repeat bs k)) by (apply Forall_forall; intros x Hx; apply repeat_spec in Hx; exact Hx).
  assert (Bt : between regs [] (@enter W I create regs w o)) by (split; [symmetry; apply filter_all; intros; reflexivity|repeat split]).
  pose proof (loop_spec passes ret regs Np gs [] S (repeat bs k) (enter create regs w o) ltac:(rewrite repeat_length; exact Lk) Fb Bt) as P. cbv zeta in P. fold st in P. clearbody st. destruct P as (P1 & P2 & P3). cbn [enter weight] in P3. split.
  - intros g n Hg Hn. rewrite P3. rewrite (stages_fixpoint passes _ bs regs gs [] S (repeat bs k) w ltac:(rewrite repeat_length; exact Lk) Fb' g n Hg Hn). f_equal. rewrite P2. apply given_ext. intros m _. destruct (mem m g); [reflexivity|symmetry; apply P3].
  - intros n H. rewrite P3. apply stages_other. intros K. apply (schedule_members regs gs [] S) in K. apply H. split; [apply K|]. destruct K as [_ K]. unfold todo in K. apply andb_prop in K. apply hooked_in. apply K.
Qed.
(** Afterwards only layers that were never called are hooked, and a pass runs to its end. *)
Theorem C96_hooks passes ret create regs w o gs bs k :
  passes <> [] -> bs <> [] -> schedule regs [] gs -> length gs <= k ->
  let st := loop calls input output solve passes ret (repeat bs k) (enter create regs w o) in
  (forall e, In e (hooks st) <-> In e regs /\ ~ In (fst e) calls) /\ forall q b, orig_forward calls input output false q b st = (st, Some (output q b (seen q st))).
Proof.
  intros Np Nb S Lk st. assert (Fb : Forall (fun x => x <> []) (repeat bs k)) by (apply Forall_forall; intros x Hx; apply repeat_spec in Hx; subst x; exact Nb).
  assert (Bt : between regs [] (@enter W I create regs w o)) by (split; [symmetry; apply filter_all; intros; reflexivity|repeat split]).
  pose proof (loop_spec passes ret regs Np gs [] S (repeat bs k) (enter create regs w o) ltac:(rewrite repeat_length; exact Lk) Fb Bt) as P. cbv zeta in P. fold st in P. clearbody st. destruct P as ((P1 & _) & _). cbn [app] in P1. destruct (schedule_members regs gs [] S) as [_ Mm].
  assert (H : forall e, In e (hooks st) <-> In e regs /\ ~ In (fst e) calls).
  { intros e. rewrite P1. unfold minus. rewrite filter_In, negb_true_iff, mem_not. split; intros [H1 H2]; (split; [exact H1|]).
    - intros K. apply H2. apply Mm. split; [exact K|]. unfold todo. cbn [mem existsb negb]. rewrite andb_true_r. apply hooked_in. apply in_map. exact H1.
    - intros K. apply Mm in K. apply H2. apply K. }
  split; [exact H|]. intros q b. unfold orig_forward. rewrite pass_none; [reflexivity|]. assert (X : forall n, In n calls -> hooked (hooks st) n = false).
  { intros n Hn. destruct (hooked (hooks st) n) eqn:E; [|reflexivity]. exfalso. apply hooked_in in E. apply in_map_iff in E. destruct E as (e & <- & He). apply H in He. tauto. }
  clear - X. induction calls as [|c cs IH]; [reflexivity|]. cbn [filter]. rewrite (X c (or_introl eq_refl)). apply IH. intros n Hn. apply X. right. exact Hn.
Qed.
(** Without groups there always is a schedule, of at most as many rounds as there are layers. *)
Lemma singles regs : Forall (fun e => snd e = 1) regs -> NoDup (map fst regs) -> forall k done, length (filter (todo regs done) calls) <= k ->
  exists gs, schedule regs done gs /\ length gs <= length (minus regs done) /\ Forall (fun g => exists n, g = [n]) gs.
Proof.
  intros F1 Nr. assert (H1 : forall n, hooked regs n = true -> hook_of n regs = Some 1).
  { intros n H. unfold hooked in H. destruct (hook_of n regs) as [l|] eqn:E; [|discriminate]. apply hook_of_some in E; [|exact Nr]. rewrite Forall_forall in F1. specialize (F1 _ E). cbn [snd] in F1. subst l. reflexivity. }
  induction k as [|k IH]; intros done Lk; destruct (filter (todo regs done) calls) as [|n rest] eqn:F; try (cbn [length] in Lk; lia).
  1, 2: exists []; split; [constructor; exact F|split; [cbn; lia|constructor]].
  assert (T : todo regs done n = true) by (assert (K : In n (filter (todo regs done) calls)) by (rewrite F; left; reflexivity); apply filter_In in K; apply K).
  assert (Hn : hooked regs n = true) by (unfold todo in T; apply andb_prop in T; apply T). pose proof (todo_in _ _ _ T) as Dn.
  assert (Lt : length (filter (todo regs (done ++ [n])) calls) <= k).
  { assert (E : filter (todo regs (done ++ [n])) calls = filter (fun m => negb (String.eqb m n)) (filter (todo regs done) calls)).
    { clear. induction calls as [|c cs IHc]; [reflexivity|]. cbn [filter]. unfold todo at 1 3. rewrite mem_app. cbn [mem existsb]. rewrite orb_false_r, negb_orb, andb_assoc. fold (todo regs done c). unfold todo in IHc |- *. destruct (hooked regs c && negb (mem c done)); cbn [andb filter]; [destruct (String.eqb c n); cbn [negb]; [exact IHc|f_equal; exact IHc]|exact IHc]. }
    rewrite E, F. cbn [filter]. rewrite String.eqb_refl. cbn [negb]. cbn [length] in Lk. clear - Lk. apply le_S_n in Lk. eapply Nat.le_trans; [|exact Lk]. clear. induction rest as [|x r IHr]; [constructor|]. cbn [filter]. destruct (negb _); cbn [length]; lia. }
  destruct (IH (done ++ [n]) Lt) as (gs & S & Lg & Fg). exists ([n] :: gs). split; [|split; [|constructor; [exists n; reflexivity|exact Fg]]].
  - apply (sched_cons regs done [n] gs rest); [constructor; [intros []|constructor]|discriminate|exact F| |exact S]. intros m [<-|[]]. apply H1. exact Hn.
  - cbn [length]. assert (K : 1 + length (minus regs (done ++ [n])) <= length (minus regs done)); [|lia]. rewrite <- minus_app. apply hooked_in in Hn.
    assert (Hm : In n (map fst (minus regs done))). { apply in_map_iff in Hn. destruct Hn as (e & <- & He). apply in_map. apply filter_In. split; [exact He|]. apply negb_true_iff, mem_not. exact Dn. }
    clear - Hm. induction (minus regs done) as [|[a b] l IHl]; [destruct Hm|]. unfold minus in *. cbn [filter map fst mem existsb] in *. rewrite orb_false_r. destruct (String.eqb_spec a n) as [->|D]; cbn [negb length].
    + apply le_n_S. clear. induction l as [|x l IH]; [constructor|]. cbn [filter]. destruct (negb _); cbn [length]; lia.
    + destruct Hm as [Hm|Hm]; [congruence|]. specialize (IHl Hm). lia.
Qed.
(** Without groups, after as many iterations as there are layers every supported layer that the network
    calls has been updated from the inputs it has in the final network; no hook of a called layer is left. *)
Theorem C96_sequential passes ret create regs w o bs k :
  passes <> [] -> bs <> [] -> Forall (fun e => snd e = 1) regs -> NoDup (map fst regs) -> length regs <= k ->
  let st := loop calls input output solve passes ret (repeat bs k) (enter create regs w o) in
  (forall n, In n calls -> In n (map fst regs) -> weight st n = solve n (given passes bs (weight st) (weight_orig st) n) (w n))
  /\ (forall n, ~ (In n calls /\ In n (map fst regs)) -> weight st n = w n)
  /\ (forall e, In e (hooks st) <-> In e regs /\ ~ In (fst e) calls).
Proof.
  intros Np Nb F1 Nr Lk st. destruct (singles regs F1 Nr _ [] (Nat.le_refl _)) as (gs & S & Lg & Fg). assert (Em : minus regs [] = regs) by (apply filter_all; intros; reflexivity). rewrite Em in Lg.
  destruct (C96_groups passes ret create regs w o gs bs k Np Nb S ltac:(lia)) as [G1 G2]. destruct (C96_hooks passes ret create regs w o gs bs k Np Nb S ltac:(lia)) as [H1 _]. fold st in G1, G2, H1. split; [|split; assumption].
  intros n Hc Hr. assert (Hn : In n (concat gs)) by (apply (schedule_members regs gs [] S); split; [exact Hc|unfold todo; cbn [mem existsb negb]; rewrite andb_true_r; apply hooked_in; exact Hr]).
  apply in_concat in Hn. destruct Hn as (g & Hg & Hn). rewrite (G1 g n Hg Hn). f_equal. apply given_ext. intros m Hm. rewrite Forall_forall in Fg. destruct (Fg g Hg) as (x & ->). destruct Hn as [->|[]].
  unfold mem. cbn [existsb]. rewrite (proj2 (String.eqb_neq m n) (before_first n calls m Hm)). reflexivity.
Qed.
(** The float pass of GPFQ sees the network as it was on entry, whatever has been updated. *)
Theorem C96_float_reference passes ret regs w gs bs k : passes <> [] -> bs <> [] -> schedule regs [] gs -> length gs <= k ->
  let st := loop calls input output solve passes ret (repeat bs k) (enter true regs w (fun _ => None)) in
  forall n, seen false st n = w n.
Proof.
  intros Np Nb S Lk st n. destruct (C96_groups passes ret true regs w (fun _ => None) gs bs k Np Nb S Lk) as [_ G2]. fold st in G2.
  assert (Fb : Forall (fun x => x <> []) (repeat bs k)) by (apply Forall_forall; intros x Hx; apply repeat_spec in Hx; subst x; exact Nb).
  assert (Bt : between regs [] (@enter W I true regs w (fun _ => None))) by (split; [symmetry; apply filter_all; intros; reflexivity|repeat split]).
  pose proof (loop_spec passes ret regs Np gs [] S (repeat bs k) (enter true regs w (fun _ => None)) ltac:(rewrite repeat_length; exact Lk) Fb Bt) as P. cbv zeta in P. fold st in P. destruct P as (_ & P2 & _). unfold seen. rewrite P2. cbn [enter weight_orig andb].
  destruct (existsb (fun e => String.eqb (fst e) n) regs) eqn:E; [reflexivity|]. apply G2. intros [_ K]. apply in_map_iff in K. destruct K as (e & <- & He). assert (X : existsb (fun e0 => String.eqb (fst e0) (fst e)) regs = true) by (apply existsb_exists; exists e; split; [exact He|apply String.eqb_refl]). congruence.
Qed.
(** Weights stored by an earlier run are not refreshed: with the quantizers off the layers still run with
    those; and without create_weight_orig nothing is stored, so the float pass sees the updated weights. *)
Theorem C96_stored passes ret create regs w o gs bs k : passes <> [] -> bs <> [] -> schedule regs [] gs -> length gs <= k ->
  let st := loop calls input output solve passes ret (repeat bs k) (enter create regs w o) in
  (forall n x, o n = Some x -> seen false st n = x)
  /\ (create = false -> forall n, o n = None -> weight_orig st n = None /\ seen false st n = weight st n).
Proof.
  intros Np Nb S Lk st.
  assert (Fb : Forall (fun x => x <> []) (repeat bs k)) by (apply Forall_forall; intros x Hx; apply repeat_spec in Hx; subst x; exact Nb).
  assert (Bt : between regs [] (@enter W I create regs w o)) by (split; [symmetry; apply filter_all; intros; reflexivity|repeat split]).
  pose proof (loop_spec passes ret regs Np gs [] S (repeat bs k) (enter create regs w o) ltac:(rewrite repeat_length; exact Lk) Fb Bt) as P. cbv zeta in P. fold st in P. destruct P as (_ & P2 & _).
  split.
  - intros n x E. unfold seen. rewrite P2. cbn [enter weight_orig]. rewrite E. reflexivity.
  - intros -> n E. assert (X : weight_orig st n = None) by (rewrite P2; cbn [enter weight_orig andb]; rewrite E; reflexivity). split; [exact X|]. unfold seen. rewrite X. reflexivity.
Qed.
(** With return_forward_output, every call of the model returns its full output for the current weights. *)
Theorem C96_output passes b (st : @state W I) : exists st', catch_stopfwd calls input output passes true b st = (st', Some (output true b (weight st'))).
Proof. unfold catch_stopfwd. set (st1 := fold_left _ passes st). exists st1. unfold orig_forward. rewrite pass_disabled. reflexivity. Qed.
End Mode.

(** ** The Hessian is twice the average of X X^T, whatever the batch sizes. *)
Open Scope R_scope.
Definition sum (f : R * R -> R) (l : list (R * R)) : R := fold_right (fun x a => f x + a) 0 l.
Lemma sqrt_2n n : 0 < n -> sqrt (2 / n) * sqrt (2 / n) = 2 / n.
Proof. intros H. apply sqrt_sqrt. apply Rlt_le. apply Rdiv_lt_0_compat; lra. Qed.
Lemma hessian_gen : forall l H n S, (forall x, In x l -> 0 < fst x) -> 0 <= n -> (0 < n -> H * n = 2 * S) -> (n = 0 -> S = 0) ->
  let r := fold_left hessian_step l (H, n) in snd r = n + sum fst l /\ (0 < snd r -> fst r * snd r = 2 * (S + sum snd l)).
Proof.
  induction l as [|[b g] l IH]; intros H n S P Hn E0 E1; cbn [fold_left sum fold_right fst snd].
  - split; [lra|]. intros K. rewrite E0 by exact K. lra.
  - assert (Pb : 0 < b) by (apply (P (b, g)); left; reflexivity). cbn [hessian_step]. rewrite sqrt_2n by lra. specialize (IH (H * (n / (n + b)) + 2 / (n + b) * g) (n + b) (S + g)). cbv zeta in IH. destruct IH as [I1 I2].
    + intros x Hx. apply P. right. exact Hx.
    + lra.
    + intros _. destruct (Rle_lt_or_eq_dec 0 n Hn) as [K|K].
      * replace ((H * (n / (n + b)) + 2 / (n + b) * g) * (n + b)) with (H * n + 2 * g) by (field; lra). rewrite E0 by exact K. ring.
      * subst n. rewrite E1 by reflexivity. field. lra.
    + intros K. lra.
    + fold (sum fst l) (sum snd l). split; [rewrite I1; lra|]. intros K. rewrite I2 by exact K. ring.
Qed.
Theorem C96_hessian l : l <> [] -> (forall x, In x l -> 0 < fst x) -> fst (hessian l) = 2 / sum fst l * sum snd l.
Proof.
  intros Ne P. destruct (hessian_gen l 0 0 0 P ltac:(lra) ltac:(lra) ltac:(reflexivity)) as [E1 E2]. cbv zeta in E1, E2. fold (hessian l) in E1, E2.
  assert (K : 0 < sum fst l).
  { clear - Ne P. destruct l as [|x l]; [congruence|]. cbn [sum fold_right]. assert (0 < fst x) by (apply P; left; reflexivity). assert (0 <= sum fst l).
    { clear - P. assert (P' : forall x, In x l -> 0 < fst x) by (intros y Hy; apply P; right; exact Hy). clear P. induction l as [|y l IH]; cbn [sum fold_right]; [lra|]. assert (0 < fst y) by (apply P'; left; reflexivity). specialize (IH (fun z Hz => P' z (or_intror Hz))). unfold sum in IH. lra. }
    unfold sum in *. lra. }
  rewrite E1 in E2. rewrite Rplus_0_l in E2. specialize (E2 K). rewrite Rplus_0_l in E2. apply (Rmult_eq_reg_r (sum fst l)); [|lra]. rewrite E2. field. lra.
Qed.
Close Scope R_scope.

(** ** Where the order is lost *)
(** A toy network: a weight is a number, the input of a call is the batch plus the weights called before. *)
Definition toy_input (calls : list string) (q : bool) (b j : nat) (w : string -> nat) : nat := fold_right (fun n a => w n + a) b (firstn j calls).
Definition toy_solve (n : string) (l : list (bool * nat)) (w : nat) : nat := fold_right (fun x a => snd x + a) w l.
Definition toy_output (q : bool) (b : nat) (w : string -> nat) : nat := b.
Lemma toy_local calls q b j w w' : (forall n, In n (firstn j calls) -> w n = w' n) -> toy_input calls q b j w = toy_input calls q b j w'.
Proof. unfold toy_input. induction (firstn j calls) as [|n l IH]; intros H; [reflexivity|]. cbn [fold_right]. rewrite (H n (or_introl eq_refl)). f_equal. apply IH. intros m Hm. apply H. right. exact Hm. Qed.
Open Scope string_scope.
Open Scope list_scope.
Open Scope nat_scope.
(** A group whose members are not called one after the other: the layer between them is updated from the
    inputs it had before the first member was updated. *)
Theorem C96_interleaved_group_refuted : exists calls regs w bs, exists d, layers_dict calls (fun _ => true) [["a"; "c"]] = Some d /\ regs = registrations (fun _ => true) d /\
  let st := loop calls (toy_input calls) toy_output toy_solve [true] false (repeat bs (length d)) (enter false regs w (fun _ => None)) in
  In "b" calls /\ weight st "b" <> toy_solve "b" (given calls (toy_input calls) [true] bs (weight st) (weight_orig st) "b") (w "b").
Proof. exists ["a"; "b"; "c"], [("b", 1); ("a", 2); ("c", 2)], (fun _ => 1), [1; 2]. eexists. split; [reflexivity|]. split; [reflexivity|]. vm_compute. split; [right; left; reflexivity|discriminate]. Qed.
(** A layer whose name is the joined name of a group is dropped without an error. *)
Theorem C96_name_collision_refuted : exists modules groups d, NoDup modules /\ NoDup (concat groups) /\ NoDup (map join groups) /\ (forall g n, In g groups -> In n g -> In n modules)
  /\ layers_dict modules (fun _ => true) groups = Some d /\ exists n, In n modules /\ ~ In n (map fst (registrations (fun _ => true) d)).
Proof.
  exists ["a"; "b"; "a_b"], [["a"; "b"]], [("a_b", ["a"; "b"])]. repeat split.
  - repeat constructor; cbn; intuition discriminate.
  - repeat constructor; cbn; intuition discriminate.
  - repeat constructor; cbn; intuition discriminate.
  - intros g n [<-|[]] H. cbn in H |- *. tauto.
  - exists "a_b". split; [cbn; tauto|]. cbn. intuition discriminate.
Qed.
(** The hook of a layer that no calibration pass called stays: a later pass that calls it raises. *)
Theorem C96_leftover_hook_refuted : exists calls calls' regs w bs,
  let st := loop calls (toy_input calls) toy_output toy_solve [true] false (repeat bs (length regs)) (enter false regs w (fun _ => None)) in
  snd (orig_forward calls' (toy_input calls') toy_output false true 5 st) = None.
Proof. exists ["a"], ["a"; "b"], [("a", 1); ("b", 1)], (fun _ => 1), [1; 2]. reflexivity. Qed.
(** A group that names no supported layer raises on entry, and leaves the model's forward function replaced. *)
Theorem C96_forward_restored_refuted : exists modules supported groups, forall body_raises, forward_after modules supported groups body_raises = Catch.
Proof. exists ["a"], (fun _ => true), [["x"]]. reflexivity. Qed.

Example C96_enter_example : exists d, layers_dict ["q"; "r"; "k"; "v"; "o"] (fun n => negb (String.eqb n "r")) [["q"; "k"; "v"]] = Some d /\ registrations (fun n => negb (String.eqb n "r")) d = [("o", 1); ("q", 3); ("k", 3); ("v", 3)].
Proof. eexists. split; reflexivity. Qed.
Example C96_schedule_example : schedule ["q"; "k"; "v"; "r"; "o"; "q"] [("o", 1); ("q", 3); ("k", 3); ("v", 3); ("u", 1)] [] [["q"; "k"; "v"]; ["o"]].
Proof.
  apply (sched_cons _ _ [] ["q"; "k"; "v"] [["o"]] ["o"; "q"]); [repeat constructor; cbn; intuition discriminate|discriminate|reflexivity|intros n H; cbn in H; intuition (subst; reflexivity)|].
  apply (sched_cons _ _ _ ["o"] [] []); [repeat constructor; cbn; intuition discriminate|discriminate|reflexivity|intros n H; cbn in H; intuition (subst; reflexivity)|]. constructor. reflexivity.
Qed.
Example C96_sequential_example : let calls := ["a"; "b"; "a"; "c"] in let st := loop calls (toy_input calls) toy_output toy_solve [true; false] true (repeat [1; 2] 3) (enter true [("a", 1); ("c", 1); ("u", 1)] (fun _ => 1) (fun _ => None)) in
  (weight st "a", weight st "b", weight st "c", weight st "u", hooks st) = (7, 1, 43, 1, [("u", 1)]).
Proof. vm_compute. reflexivity. Qed.
Example C96_hessian_example : (fst (hessian [(2, 4); (3, 6)]) = 2 / 5 * 10)%R.
Proof. rewrite C96_hessian; [cbn [sum fold_right fst snd]; f_equal; lra|discriminate|]. intros x [<-|[<-|[]]]; cbn [fst]; lra. Qed.

(** ** C97: the flags *)
Section Flags.
Variable kind_of : nat -> kind.
Variable mods : list nat.
Variable subs : nat -> list nat.
Variable root : nat.
Hypothesis Hself : forall m, In m (subs m).
Definition rqt (st : Calibrate.state) (m : nat) : option bool := return_quant_tensor (st m).
Definition keeps_flags (f : Calibrate.state -> Calibrate.state) : Prop := forall s i, rqt (f s) i = rqt s i.

Ltac dk m := destruct (kind_of m).
Lemma upd_keeps {T} (p : attrs -> T) f s m i : (forall a, p (f a) = p a) -> p (Calibrate.upd s m f i) = p (s i).
Proof. intros H. unfold Calibrate.upd. destruct (Nat.eqb i m); [apply H|reflexivity]. Qed.
Section Keeps.
Context {T : Type}.
Variable p : attrs -> T.
Hypothesis K1 : forall b a, p (set_training b a) = p a.
Hypothesis K2 : forall b a, p (set_disable b a) = p a.
Hypothesis K3 : forall b a, p (set_observer b a) = p a.
Ltac kk := repeat first [rewrite (train_keeps subs p) by apply K1 | rewrite (observe_keeps subs p) by apply K3 | rewrite (upd_keeps p) by apply K2]; try reflexivity.
Lemma disable_act_keeps c ms t s i : p (disable_act kind_of subs c ms t s i) = p (s i).
Proof. unfold disable_act. apply for_each_keeps. intros m s' _. dk m; try destruct c; kk. Qed.
Lemma enable_act_keeps ms t s i : p (enable_act kind_of subs ms t s i) = p (s i).
Proof. unfold enable_act. apply for_each_keeps. intros m s' _. dk m; kk. Qed.
Lemma disable_param_keeps ms t s i : p (disable_param kind_of subs ms t s i) = p (s i).
Proof. unfold disable_param. apply for_each_keeps. intros m s' _. dk m; kk. Qed.
Lemma enable_param_keeps ms t s i : p (enable_param kind_of subs ms t s i) = p (s i).
Proof. unfold enable_param. apply for_each_keeps. intros m s' _. dk m; kk. Qed.
Lemma disable_bias_keeps t s i : p (disable_bias kind_of mods subs t s i) = p (s i).
Proof. unfold disable_bias. apply for_each_keeps. intros m s' _. dk m; kk. Qed.
Lemma enable_bias_keeps t s i : p (enable_bias kind_of mods subs t s i) = p (s i).
Proof. unfold enable_bias. apply for_each_keeps. intros m s' _. dk m; kk. Qed.
End Keeps.
Definition cleared (o : option bool) : option bool := match o with Some _ => Some false | None => None end.
Lemma disable_rqt_rqt st m : In m mods -> rqt (snd (disable_rqt mods st)) m = cleared (rqt st m).
Proof.
  intros H. unfold disable_rqt, rqt. cbn [snd]. destruct (return_quant_tensor (st m)) as [b|] eqn:E; cbn [cleared].
  - assert (G : forall l s, return_quant_tensor (s m) <> None -> In m l \/ return_quant_tensor (s m) = Some false -> return_quant_tensor (for_each l (fun m0 s0 => Calibrate.upd s0 m0 (set_rqt false)) s m) = Some false).
    { unfold for_each. induction l as [|a l IH]; intros s N HI; [destruct HI as [[]|HI]; exact HI|]. cbn [fold_left]. destruct (Nat.eq_dec a m) as [->|Ne].
      - assert (X : return_quant_tensor (Calibrate.upd s m (set_rqt false) m) = Some false) by (rewrite upd_same; cbn; destruct (return_quant_tensor (s m)); [reflexivity|contradiction]). apply IH; [rewrite X; discriminate|right; exact X].
      - rewrite <- (upd_other s a (set_rqt false) m) in N, HI by congruence. apply IH; [exact N|]. destruct HI as [[HI|HI]|HI]; [congruence|left; exact HI|right; exact HI]. }
    apply G; [rewrite E; discriminate|left; exact H].
  - assert (G : (match return_quant_tensor (for_each mods (fun m0 s => Calibrate.upd s m0 (set_rqt false)) st m) with Some _ => true | None => false end) = false).
    { rewrite (for_each_keeps (fun a => match return_quant_tensor a with Some _ => true | None => false end)); [rewrite E; reflexivity|]. intros m' s' _. apply (upd_keeps (fun a => match return_quant_tensor a with Some _ => true | None => false end)). intros a. cbn. destruct (return_quant_tensor a); reflexivity. }
    destruct (return_quant_tensor (for_each _ _ _ _)); [discriminate|reflexivity].
Qed.
Lemma restore_rqt_rqt sv st m : In m mods -> rqt (restore_rqt mods sv st) m = match rqt st m, lookup sv m with Some _, Some b => Some b | o, _ => o end.
Proof.
  intros H. unfold restore_rqt, rqt. destruct (lookup sv m) as [b|] eqn:L.
  - assert (G : forall l s, In m l \/ return_quant_tensor (s m) = match return_quant_tensor (st m) with Some _ => Some b | None => None end -> (return_quant_tensor (s m) = None <-> return_quant_tensor (st m) = None) ->
       return_quant_tensor (for_each l (fun m0 s0 => match lookup sv m0 with Some b0 => Calibrate.upd s0 m0 (set_rqt b0) | None => s0 end) s m) = match return_quant_tensor (st m) with Some _ => Some b | None => None end).
    { unfold for_each. induction l as [|a l IH]; intros s HI N; [destruct HI as [[]|HI]; exact HI|]. cbn [fold_left]. destruct (Nat.eq_dec a m) as [->|Ne].
      - rewrite L. assert (X : return_quant_tensor (Calibrate.upd s m (set_rqt b) m) = match return_quant_tensor (st m) with Some _ => Some b | None => None end).
        { rewrite upd_same. cbn. destruct (return_quant_tensor (s m)), (return_quant_tensor (st m)); try reflexivity; destruct N as [N1 N2]; [specialize (N2 eq_refl)|specialize (N1 eq_refl)]; discriminate. }
        apply IH; [right; exact X|]. rewrite X. destruct (return_quant_tensor (st m)); split; congruence.
      - assert (E : (match lookup sv a with Some b0 => Calibrate.upd s a (set_rqt b0) | None => s end) m = s m) by (destruct (lookup sv a); [apply upd_other; congruence|reflexivity]).
        apply IH; rewrite E; [destruct HI as [[HI|HI]|HI]; [congruence|left; exact HI|right; exact HI]|exact N]. }
    rewrite (G mods st (or_introl H) ltac:(tauto)). destruct (return_quant_tensor (st m)); reflexivity.
  - rewrite (for_each_keeps (fun a => return_quant_tensor a) mods) with (i := m).
    + destruct (return_quant_tensor (st m)); reflexivity.
    + intros m' s' _. destruct (lookup sv m') as [b|] eqn:L'; [|reflexivity]. destruct (Nat.eq_dec m m') as [<-|N]; [congruence|rewrite upd_other by exact N; reflexivity].
Qed.
Lemma saved_lookup st m : In m mods -> lookup (fst (disable_rqt mods st)) m = rqt st m.
Proof. apply lookup_in. Qed.

Ltac kp := repeat first [rewrite (disable_act_keeps return_quant_tensor) by reflexivity | rewrite (enable_act_keeps return_quant_tensor) by reflexivity | rewrite (disable_param_keeps return_quant_tensor) by reflexivity | rewrite (enable_param_keeps return_quant_tensor) by reflexivity | rewrite (disable_bias_keeps return_quant_tensor) by reflexivity | rewrite (enable_bias_keeps return_quant_tensor) by reflexivity].

(** GPTQ gives the return_quant_tensor flags back. *)
Theorem C97_gptq_flags use_quant body st m : keeps_flags body -> In m mods -> rqt (with_gptq kind_of mods subs root use_quant body st) m = rqt st m.
Proof.
  intros Kb H. unfold with_gptq, mode_enter, mode_exit. destruct use_quant; [apply Kb|]. destruct (disable_rqt mods st) as [sv st1] eqn:D. rewrite restore_rqt_rqt by exact H.
  assert (L : lookup sv m = rqt st m) by (rewrite <- (saved_lookup st m H), D; reflexivity). rewrite L. set (x := rqt _ m) at 1. assert (X : x = cleared (rqt st m)).
  { unfold x, rqt. kp. rewrite (Kb _ m : return_quant_tensor (body _ m) = _). unfold rqt. kp. replace st1 with (snd (disable_rqt mods st)) by (rewrite D; reflexivity). apply disable_rqt_rqt. exact H. }
  rewrite X. destruct (rqt st m); reflexivity.
Qed.
Lemma forward_flags use_quant body x m : keeps_flags body -> In m mods -> rqt (snd (gpfq_forward kind_of mods subs use_quant body x)) m = rqt (snd x) m /\ lookup (fst (gpfq_forward kind_of mods subs use_quant body x)) m = rqt (snd x) m.
Proof.
  intros Kb H. unfold gpfq_forward. destruct x as [sv0 st]. cbn [snd]. destruct (disable_rqt mods st) as [sv st1] eqn:D. cbn [fst snd].
  assert (L : lookup sv m = rqt st m) by (rewrite <- (saved_lookup st m H), D; reflexivity). split; [|exact L]. rewrite restore_rqt_rqt by exact H. rewrite L. set (x := rqt _ m) at 1. assert (X : x = cleared (rqt st m)).
  { unfold x, rqt. destruct use_quant; kp; rewrite (Kb _ m : return_quant_tensor (body _ m) = _); unfold rqt; kp; (replace st1 with (snd (disable_rqt mods st)) by (rewrite D; reflexivity)); apply disable_rqt_rqt; exact H. }
  rewrite X. destruct (rqt st m); reflexivity.
Qed.
Lemma forwards_flags use_quant m : In m mods -> forall bodies x, Forall keeps_flags bodies -> bodies <> [] ->
  rqt (snd (fold_left (fun x body => gpfq_forward kind_of mods subs use_quant body x) bodies x)) m = rqt (snd x) m /\ lookup (fst (fold_left (fun x body => gpfq_forward kind_of mods subs use_quant body x) bodies x)) m = rqt (snd x) m.
Proof.
  intros H. induction bodies as [|b bs IH]; intros x F Ne; [congruence|]. inversion F as [|? ? F1 F2]; subst. cbn [fold_left]. destruct (forward_flags use_quant b x m F1 H) as [E1 E2]. destruct bs as [|b' bs]; [cbn [fold_left]; split; assumption|].
  destruct (IH (gpfq_forward kind_of mods subs use_quant b x) F2 ltac:(discriminate)) as [I1 I2]. rewrite I1, I2. split; exact E1.
Qed.
(** So does GPFQ with quantized activations, after any number of batches. *)
Theorem C97_gpfq_flags bodies st m : Forall keeps_flags bodies -> In m mods -> rqt (with_gpfq kind_of mods subs root true bodies st) m = rqt st m.
Proof.
  intros F H. unfold with_gpfq, mode_enter, mode_exit. destruct bodies as [|b bs]; [reflexivity|]. destruct (forwards_flags true m H (b :: bs) ([], st) F ltac:(discriminate)) as [E _]. destruct (fold_left _ (b :: bs) _) as [sv st']. exact E.
Qed.
(** GPFQ without quantized activations clears every flag as soon as one batch has run: the
    saved flags are overwritten by the batch, when all of them are already off. *)
Theorem C97_gpfq_flags_lost bodies st m : Forall keeps_flags bodies -> bodies <> [] -> In m mods -> rqt (with_gpfq kind_of mods subs root false bodies st) m = cleared (rqt st m).
Proof.
  intros F Ne H. unfold with_gpfq, mode_enter. destruct (disable_rqt mods st) as [sv st1] eqn:D. set (st2 := disable_bias _ _ _ _ _). destruct (forwards_flags false m H bodies (sv, st2) F Ne) as [E1 E2]. destruct (fold_left _ bodies _) as [sv' st']. cbn [fst snd] in E1, E2.
  assert (X : rqt st2 m = cleared (rqt st m)).
  { unfold st2, rqt. kp. replace st1 with (snd (disable_rqt mods st)) by (rewrite D; reflexivity). apply disable_rqt_rqt. exact H. }
  unfold mode_exit. rewrite restore_rqt_rqt by exact H. rewrite E2, X. set (y := rqt _ m) at 1. assert (Y : y = cleared (rqt st m)) by (unfold y; transitivity (rqt st' m); [unfold rqt; kp; reflexivity|rewrite E1; exact X]). rewrite Y. destruct (rqt st m); reflexivity.
Qed.

(** *** Which quantizers are on *)
Definition dis (st : Calibrate.state) (m : nat) : bool := disable_quant (st m).
Definition is_act (m : nat) : bool := match kind_of m with KAct | KAcc => true | _ => false end.
Definition is_param (m : nat) : bool := match kind_of m with KWeight | KBias => true | _ => false end.
Definition is_bias (m : nat) : bool := match kind_of m with KBias => true | _ => false end.
Lemma train_dis m b s i : disable_quant (train subs m b s i) = disable_quant (s i).
Proof. apply (train_keeps subs disable_quant). reflexivity. Qed.
Lemma observe_dis m b s i : disable_quant (observe subs m b s i) = disable_quant (s i).
Proof. apply (observe_keeps subs disable_quant). reflexivity. Qed.
Lemma sets_dis (sel : nat -> bool) v f st m : (forall k s i, disable_quant (f k s i) = if sel k && Nat.eqb i k then v else disable_quant (s i)) -> In m mods -> dis (for_each mods f st) m = if sel m then v else dis st m.
Proof.
  intros Hf H. unfold dis. destruct (sel m) eqn:E.
  - apply (for_each_sets disable_quant v (fun k i => sel k && Nat.eqb i k = true)).
    + intros k s _. rewrite Hf. destruct (sel k && Nat.eqb m k); [left|right]; reflexivity.
    + intros k s _ K. rewrite Hf, K. reflexivity.
    + exists m. split; [exact H|]. rewrite E, Nat.eqb_refl. reflexivity.
  - apply for_each_keeps. intros k s _. rewrite Hf. destruct (Nat.eqb_spec m k) as [<-|]; [rewrite E|rewrite andb_false_r]; reflexivity.
Qed.
Lemma upd_dis s k i v : disable_quant (Calibrate.upd s k (set_disable v) i) = if Nat.eqb i k then v else disable_quant (s i).
Proof. unfold Calibrate.upd. destruct (Nat.eqb i k); reflexivity. Qed.
Lemma disable_act_dis t st m : In m mods -> dis (disable_act kind_of subs false mods t st) m = if is_act m then true else dis st m.
Proof. apply sets_dis. intros k s i. unfold is_act. dk k; cbn [andb]; try reflexivity; rewrite upd_dis, train_dis; reflexivity. Qed.
Lemma enable_act_dis t st m : In m mods -> dis (enable_act kind_of subs mods t st) m = if is_act m then false else dis st m.
Proof. apply sets_dis. intros k s i. unfold is_act. dk k; cbn [andb]; try reflexivity; rewrite ?observe_dis, ?upd_dis, ?train_dis, ?upd_dis; reflexivity. Qed.
Lemma disable_param_dis t st m : In m mods -> dis (disable_param kind_of subs mods t st) m = if is_param m then true else dis st m.
Proof. apply sets_dis. intros k s i. unfold is_param. dk k; cbn [andb]; try reflexivity; rewrite upd_dis, train_dis; reflexivity. Qed.
Lemma enable_param_dis t st m : In m mods -> dis (enable_param kind_of subs mods t st) m = if is_param m then false else dis st m.
Proof. apply sets_dis. intros k s i. unfold is_param. dk k; cbn [andb]; try reflexivity; rewrite train_dis, upd_dis; reflexivity. Qed.
Lemma disable_bias_dis t st m : In m mods -> dis (disable_bias kind_of mods subs t st) m = if is_bias m then true else dis st m.
Proof. apply sets_dis. intros k s i. unfold is_bias. dk k; cbn [andb]; try reflexivity; rewrite upd_dis, train_dis; reflexivity. Qed.
Lemma enable_bias_dis t st m : In m mods -> dis (enable_bias kind_of mods subs t st) m = if is_bias m then false else dis st m.
Proof. apply sets_dis. intros k s i. unfold is_bias. dk k; cbn [andb]; try reflexivity; rewrite train_dis, upd_dis; reflexivity. Qed.
Lemma restore_dis sv st m : dis (restore_rqt mods sv st) m = dis st m.
Proof. apply (restore_keeps mods disable_quant). reflexivity. Qed.
Lemma clear_dis st m : dis (snd (disable_rqt mods st)) m = dis st m.
Proof. unfold dis, disable_rqt. cbn [snd]. apply for_each_keeps. intros k s _. apply upd_keeps. reflexivity. Qed.

(** Inside the contexts, without quantized activations, activation and bias quantizers are off and weight
    quantizers are as before. *)
Theorem C97_inside st m : In m mods -> dis (snd (mode_enter kind_of mods subs root false st)) m = if is_act m || is_bias m then true else dis st m.
Proof.
  intros H. unfold mode_enter. destruct (disable_rqt mods st) as [sv st1] eqn:D. cbn [snd]. rewrite disable_bias_dis, disable_act_dis by exact H. replace st1 with (snd (disable_rqt mods st)) by (rewrite D; reflexivity). rewrite clear_dis. destruct (is_act m), (is_bias m); reflexivity.
Qed.
(** In GPFQ's float pass every quantizer is off: only what the pass does in such states matters. *)
Theorem C97_float_pass use_quant b1 b2 x : (forall s, (forall m, In m mods -> kind_of m <> KOther -> dis s m = true) -> b1 s = b2 s) ->
  gpfq_forward kind_of mods subs use_quant b1 x = gpfq_forward kind_of mods subs use_quant b2 x.
Proof.
  intros E. unfold gpfq_forward. destruct (disable_rqt mods (snd x)) as [sv st1]. cbn [snd]. rewrite E; [reflexivity|]. intros m H K. rewrite disable_act_dis, disable_param_dis by exact H. unfold is_act, is_param. dk m; try reflexivity. congruence.
Qed.
Lemma after_batch use_quant body x m : In m mods -> kind_of m <> KOther ->
  dis (snd (gpfq_forward kind_of mods subs use_quant body x)) m = match kind_of m with KWeight => false | KBias => negb use_quant | _ => if use_quant then false else dis (body (disable_act kind_of subs false mods false (disable_param kind_of subs mods false (snd (disable_rqt mods (snd x)))))) m end.
Proof.
  intros H K. unfold gpfq_forward. destruct (disable_rqt mods (snd x)) as [sv st1]. cbn [snd]. rewrite restore_dis. destruct use_quant.
  - rewrite enable_act_dis, enable_param_dis by exact H. unfold is_act, is_param. dk m; try reflexivity. congruence.
  - rewrite disable_bias_dis, enable_param_dis by exact H. unfold is_bias, is_param. dk m; try reflexivity.
Qed.
(** Between two batches of GPFQ the weight quantizers are on, the others as asked for. *)
Theorem C97_between_batches use_quant body x m : (forall s i, dis (body s) i = dis s i) -> In m mods -> kind_of m <> KOther ->
  dis (snd (gpfq_forward kind_of mods subs use_quant body x)) m = match kind_of m with KWeight => false | _ => negb use_quant end.
Proof.
  intros Kb H K. rewrite after_batch by assumption. destruct use_quant; [dk m; reflexivity|]. rewrite Kb, disable_act_dis by exact H. unfold is_act. dk m; try reflexivity. congruence.
Qed.
(** Afterwards every quantizer is on, also one that was off before. *)
Theorem C97_gpfq_enabled use_quant bodies st m : bodies <> [] -> In m mods -> kind_of m <> KOther -> dis (with_gpfq kind_of mods subs root use_quant bodies st) m = false.
Proof.
  intros Ne H K. unfold with_gpfq. destruct (exists_last Ne) as (bs & b & ->). rewrite fold_left_app. cbn [fold_left]. set (x := fold_left _ bs _). clearbody x.
  pose proof (after_batch use_quant b x m H K) as E. destruct (gpfq_forward kind_of mods subs use_quant b x) as [sv st']. cbn [snd] in E. unfold mode_exit. destruct use_quant.
  - rewrite E. dk m; reflexivity.
  - rewrite restore_dis, enable_bias_dis, enable_act_dis by exact H. unfold is_bias, is_act. rewrite E. dk m; try reflexivity. congruence.
Qed.
(** After GPTQ without quantized activations the activation and bias quantizers are on, the weight quantizers as the body leaves them. *)
Theorem C97_gptq_enabled body st m : In m mods -> is_act m || is_bias m = true -> dis (with_gptq kind_of mods subs root false body st) m = false.
Proof.
  intros H K. unfold with_gptq. destruct (mode_enter kind_of mods subs root false st) as [sv st1]. unfold mode_exit. rewrite restore_dis, enable_bias_dis, enable_act_dis by exact H. destruct (is_act m), (is_bias m); try reflexivity. discriminate.
Qed.

(** *** Training mode *)
Lemma eval_step {f : nat -> Calibrate.state -> Calibrate.state} {m : nat} (sel : nat -> bool) st : (forall k s i, training (f k s i) = false \/ training (f k s i) = training (s i)) -> (forall k s, sel k = true -> training (f k s k) = false) ->
  In m mods -> (sel m = true \/ training (st m) = false) -> training (for_each mods f st m) = false.
Proof.
  intros H1 H2 Hm Hs. destruct (sel m) eqn:E.
  - apply (for_each_sets training false (fun k i => sel k = true /\ k = i)); [intros k s _; apply H1|intros k s _ [K1 ->]; apply H2; exact K1|exists m; auto].
  - destruct Hs as [Hs|Hs]; [discriminate|]. clear - H1 Hs. unfold for_each. revert st Hs. induction mods as [|k l IH]; intros st Hs; [exact Hs|]. cbn [fold_left]. apply IH. destruct (H1 k st m) as [X|X]; [exact X|congruence].
Qed.
Lemma upd_tr s k i v : training (Calibrate.upd s k (set_disable v) i) = training (s i).
Proof. unfold Calibrate.upd. destruct (Nat.eqb i k); reflexivity. Qed.
Lemma obs_tr m b s i : training (observe subs m b s i) = training (s i).
Proof. apply (observe_keeps subs training). reflexivity. Qed.
Lemma train_tr k s i : training (train subs k false s i) = false \/ training (train subs k false s i) = training (s i).
Proof. apply train_training_either. Qed.
(** GPFQ leaves every quantizer in evaluation mode, also in a model that is being trained. *)
Theorem C97_gpfq_eval bodies st m : bodies <> [] -> In m mods -> kind_of m <> KOther -> training (with_gpfq kind_of mods subs root true bodies st m) = false.
Proof.
  intros Ne H K. unfold with_gpfq. destruct (exists_last Ne) as (bs & b & ->). rewrite fold_left_app. cbn [fold_left]. set (x := fold_left _ bs _). clearbody x. unfold gpfq_forward, mode_exit. destruct (disable_rqt mods (snd x)) as [sv st1].
  rewrite (restore_keeps mods training) by reflexivity. set (s0 := b _). clearbody s0. unfold enable_act. apply (eval_step is_act).
  - intros k s i. dk k; try (right; reflexivity); rewrite ?obs_tr, ?upd_tr; [rewrite <- (upd_tr s k i false)|]; apply train_tr.
  - intros k s E. unfold is_act in E. dk k; try discriminate; rewrite ?obs_tr, ?upd_tr; apply train_training; apply Hself.
  - exact H.
  - destruct (is_act m) eqn:Ea; [left; reflexivity|right]. unfold enable_param. apply (eval_step is_param).
    + intros k s i. dk k; try (right; reflexivity); rewrite <- (upd_tr s k i false); apply train_tr.
    + intros k s E. unfold is_param in E. dk k; try discriminate; apply train_training; apply Hself.
    + exact H.
    + left. unfold is_act in Ea. unfold is_param. dk m; try discriminate; try reflexivity. congruence.
Qed.
End Flags.
(** The refutations at work: a layer returning quantized tensors no longer does after a GPFQ run without quantized activations,
    and proxies are left in evaluation mode. *)
Definition ex_kind (m : nat) : kind := match m with 1 => KWeight | 2 => KAct | _ => KOther end.
Definition ex_subs (m : nat) : list nat := match m with 0 => [0; 1; 2] | n => [n] end.
Definition ex_state : Calibrate.state := fun m => A true false None (match m with 0 => Some true | _ => None end) None None None.
Theorem C97_gpfq_restores_refuted : exists kind_of mods subs root bodies st m, (forall i, In i (subs i)) /\ Forall keeps_flags bodies /\ In m mods /\ rqt st m = Some true /\ rqt (with_gpfq kind_of mods subs root false bodies st) m = Some false.
Proof. exists ex_kind, [0; 1; 2], ex_subs, 0, [fun s => s], ex_state, 0. repeat split; [intros [|i]; left; reflexivity|constructor; [intros s i; reflexivity|constructor]|left; reflexivity]. Qed.
Theorem C97_gpfq_training_refuted : exists kind_of mods subs root bodies st m, (forall i, In i (subs i)) /\ (forall i, training (st i) = true) /\ In m mods /\ training (with_gpfq kind_of mods subs root true bodies st root) = true /\ training (with_gpfq kind_of mods subs root true bodies st m) = false.
Proof. exists ex_kind, [0; 1; 2], ex_subs, 0, [fun s => s], ex_state, 2. repeat split; [intros [|i]; left; reflexivity|right; right; left; reflexivity]. Qed.
Example C97_example : rqt (with_gptq ex_kind [0; 1; 2] ex_subs 0 false (fun s => s) ex_state) 0 = Some true /\ rqt (with_gpfq ex_kind [0; 1; 2] ex_subs 0 true [fun s => s; fun s => s] ex_state) 0 = Some true
  /\ dis (snd (mode_enter ex_kind [0; 1; 2] ex_subs 0 false ex_state)) 2 = true /\ dis (with_gpfq ex_kind [0; 1; 2] ex_subs 0 false [fun s => s] ex_state) 2 = false.
Proof. repeat split. Qed.

Print Assumptions C96_enter.
Print Assumptions C96_groups.
Print Assumptions C96_hooks.
Print Assumptions C96_sequential.
Print Assumptions C96_float_reference.
Print Assumptions C96_stored.
Print Assumptions C96_output.
Print Assumptions C96_hessian.
Print Assumptions C96_interleaved_group_refuted.
Print Assumptions C96_name_collision_refuted.
Print Assumptions C96_leftover_hook_refuted.
Print Assumptions C96_forward_restored_refuted.
Print Assumptions C97_gptq_flags.
Print Assumptions C97_gpfq_flags.
Print Assumptions C97_gpfq_flags_lost.
Print Assumptions C97_inside.
Print Assumptions C97_float_pass.
Print Assumptions C97_between_batches.
Print Assumptions C97_gpfq_enabled.
Print Assumptions C97_gptq_enabled.
Print Assumptions C97_gpfq_eval.
Print Assumptions C97_gpfq_restores_refuted.
Print Assumptions C97_gpfq_training_refuted.
