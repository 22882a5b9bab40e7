(** C93: inheritance of quantizer attributes and routing of layer keywords. *)
From Coq Require Import List Bool String Ascii Arith Lia.
From Verif Require Import StateDict StateDictProps Inject InjectProofs.
Import ListNotations.
Open Scope string_scope.

(** ** Dictionaries *)
Lemma update_get {V} (e d : dict (spec V)) k : NoDup (keys e) -> get (update d e) k = match get e k with Some s => Some s | None => get d k end.
Proof. apply restore_get. Qed.
Lemma update_nodup {V} (e : dict (spec V)) : forall d, NoDup (keys d) -> NoDup (keys (update d e)).
Proof. induction e as [|[a s] e IH]; intros d H; [exact H|]. apply IH. apply set_nodup. exact H. Qed.
Fixpoint first_base {V} (bases : list (dict (spec V))) (k : string) : option (spec V) :=
  match bases with [] => None | b :: bases => match get b k with Some s => Some s | None => first_base bases k end end.
Lemma bases_get {V} (bases : list (dict (spec V))) k : Forall (fun b => NoDup (keys b)) bases -> get (fold_left update (rev bases) []) k = first_base bases k.
Proof.
  induction bases as [|b bases IH]; intros F; [reflexivity|]. inversion F as [|? ? Fb F']; subst. cbn [rev first_base]. rewrite fold_left_app. cbn [fold_left].
  rewrite update_get by exact Fb. rewrite (IH F'). reflexivity.
Qed.
Lemma bases_nodup {V} (bases : list (dict (spec V))) : NoDup (keys (fold_left update bases [])).
Proof.
  assert (H : forall d, NoDup (keys d) -> NoDup (keys (fold_left update bases d))); [|apply H; constructor].
  induction bases as [|b bases IH]; intros d Hd; [exact Hd|]. apply IH. apply update_nodup. exact Hd.
Qed.

(** ** Inheritance
    An injector class: its name, its own definitions and its bases. *)
Inductive icls {V} := Cls (name : string) (own : dict (spec V)) (bases : list icls).
Arguments icls V : clear implicits.
Definition cname {V} (c : icls V) := let '(Cls n _ _) := c in n.
Definition own {V} (c : icls V) := let '(Cls _ o _) := c in o.
Definition cbases {V} (c : icls V) := let '(Cls _ _ b) := c in b.
(** What [__new__] (Inject.v) computes, class by class. *)
Fixpoint deps_of {V} (c : icls V) : dict (spec V) := match c with Cls _ o bs => new_class (map deps_of bs) o end.
(** Depth first, left to right. *)
Fixpoint dfs {V} (c : icls V) (k : string) : option (spec V) :=
  match c with
  | Cls _ o bs => match get o k with
                  | Some s => Some s
                  | None => (fix go l := match l with [] => None | b :: l => match dfs b k with Some s => Some s | None => go l end end) bs
                  end
  end.
Fixpoint dicts {V} (c : icls V) : Prop :=
  match c with Cls _ o bs => NoDup (keys o) /\ (fix go l := match l with [] => True | b :: l => dicts b /\ go l end) bs end.
Fixpoint icls_ind2 {V} (P : icls V -> Prop) (H : forall n o bs, Forall P bs -> P (Cls n o bs)) (c : icls V) : P c :=
  match c with Cls n o bs => H n o bs ((fix go l : Forall P l := match l with [] => Forall_nil P | b :: l => Forall_cons b (icls_ind2 P H b) (go l) end) bs) end.
Lemma deps_nodup {V} (c : icls V) : NoDup (keys (deps_of c)).
Proof. destruct c as [n o bs]. cbn [deps_of]. apply update_nodup, bases_nodup. Qed.

(** An attribute of a quantizer class is its own definition, otherwise the one of the first base that
    has it, own or inherited. *)
Theorem C93_depth_first {V} (c : icls V) : dicts c -> forall k, get (deps_of c) k = dfs c k.
Proof.
  induction c as [n o bs IH] using icls_ind2. intros D k. cbn [deps_of dfs dicts] in *. destruct D as [Do Db]. unfold new_class. rewrite update_get by exact Do.
  destruct (get o k) as [s|]; [reflexivity|]. rewrite bases_get by (apply Forall_forall; intros b Hb; apply in_map_iff in Hb; destruct Hb as (c & <- & _); apply deps_nodup).
  clear Do. induction bs as [|b bs IHb]; [reflexivity|]. inversion IH as [|? ? Hb Hbs]; subst. destruct Db as [Db1 Db2]. cbn [map first_base]. rewrite (Hb Db1 k).
  destruct (dfs b k); [reflexivity|]. exact (IHb Hbs Db2).
Qed.
(** A class with one base: its own definitions first, then those of the base; [let] is such a class. *)
Theorem C93_let {V} (d kw : dict (spec V)) k : NoDup (keys d) -> NoDup (keys kw) -> get (let_ d kw) k = match get kw k with Some s => Some s | None => get d k end.
Proof.
  intros Nd Nk. unfold let_, new_class. rewrite update_get by exact Nk. destruct (get kw k); [reflexivity|]. cbn [rev app fold_left]. rewrite update_get by exact Nd. destruct (get d k); reflexivity.
Qed.
(** Python's own lookup goes through the C3 linearisation of the class. *)
Definition in_tail {V} (c : icls V) (l : list (icls V)) : bool := match l with [] => false | _ :: t => existsb (fun x => String.eqb (cname x) (cname c)) t end.
Fixpoint merge {V} (fuel : nat) (ls : list (list (icls V))) : list (icls V) :=
  match fuel with
  | O => []
  | S fuel =>
      match find (fun c => negb (existsb (in_tail c) ls)) (flat_map (fun l => match l with [] => [] | c :: _ => [c] end) ls) with
      | None => []
      | Some c => c :: merge fuel (map (fun l => match l with [] => [] | x :: t => if String.eqb (cname x) (cname c) then t else l end) ls)
      end
  end.
Fixpoint mro {V} (c : icls V) : list (icls V) := match c with Cls _ _ bs => c :: merge 100 (map mro bs ++ [bs])%list end.
Fixpoint lookup {V} (l : list (icls V)) (k : string) : option (spec V) := match l with [] => None | c :: l => match get (own c) k with Some s => Some s | None => lookup l k end end.
Definition const (v : nat) : spec nat := Spec false [] 1 (fun _ => Val v).
Definition base_q := Cls "Base" [("bit_width", const 8)] [].
Definition left_q := Cls "Left" [("signed", const 1)] [base_q].
Definition right_q := Cls "Right" [("bit_width", const 4)] [base_q].
Definition both_q := Cls "Both" [] [left_q; right_q].
(** With two bases of common ancestry the attribute is not the one Python would find: what the left base
    merely inherits hides what the right base redefines. *)
Theorem C93_diamond_refuted : exists (c : icls nat) (k : string), dicts c
  /\ map cname (mro c) = ["Both"; "Left"; "Right"; "Base"] /\ lookup (mro c) k = Some (const 4) /\ get (deps_of c) k = Some (const 8) /\ const 4 <> const 8.
Proof.
  exists both_q, "bit_width". split; [cbn; repeat split; repeat constructor; cbn; tauto|]. split; [reflexivity|]. split; [reflexivity|]. split; [reflexivity|].
  intros E. apply (f_equal (fun s => run s [])) in E. discriminate.
Qed.

(** ** Keywords *)
Lemma drop_app p k : drop (length p) (p ++ k) = k.
Proof. induction p as [|c p IH]; [destruct k; reflexivity|exact IH]. Qed.
Lemma take_app p k : take (length p) (p ++ k) = p.
Proof. induction p as [|c p IH]; [reflexivity|]. cbn [append length take]. f_equal. exact IH. Qed.
Lemma length_app p k : length (p ++ k) = (length p + length k)%nat.
Proof. induction p as [|c p IH]; [reflexivity|]. cbn [append length plus]. f_equal. exact IH. Qed.
Lemma take_drop n s : s = take n s ++ drop n s.
Proof. revert s. induction n as [|n IH]; intros [|c s]; try reflexivity. cbn [take drop append]. f_equal. apply IH. Qed.
Lemma startswith_app p k : startswith (p ++ k) p = true.
Proof. unfold startswith. rewrite take_app, String.eqb_refl, length_app. cbn [andb]. apply Nat.leb_le. lia. Qed.
Lemma startswith_split k p : startswith k p = true -> k = p ++ drop (length p) k.
Proof. unfold startswith. intros H. apply andb_prop in H. destruct H as [H _]. apply String.eqb_eq in H. rewrite <- H at 1. apply take_drop. Qed.
Lemma app_inj p a b : p ++ a = p ++ b -> a = b.
Proof. induction p as [|c p IH]; [tauto|]. cbn [append]. intros E. injection E as E. exact (IH E). Qed.
Lemma filter_fold {A} p : forall (kw acc : dict A) k, NoDup (keys kw) ->
  get (fold_left (fun d x => if startswith (fst x) p then set d (drop (length p) (fst x)) (snd x) else d) kw acc) k
  = match get kw (p ++ k) with Some v => Some v | None => get acc k end.
Proof.
  induction kw as [|[a v] kw IH]; intros acc k ND; [reflexivity|]. inversion ND as [|? ? NI ND']; subst. cbn [fold_left fst snd get]. rewrite (IH _ _ ND').
  destruct (String.eqb_spec a (p ++ k)) as [->|Ne].
  - rewrite (proj2 (get_notin kw _) NI), startswith_app, drop_app. apply get_set_same.
  - destruct (get kw (p ++ k)); [reflexivity|]. destruct (startswith a p) eqn:S; [|reflexivity]. apply get_set_other. intros E. apply Ne. rewrite (startswith_split a p S), E. reflexivity.
Qed.
(** The keywords a quantizer receives: attribute [k] is keyword [prefix ++ k]. *)
Theorem C93_filter {A} (p : string) (kw : dict A) k : NoDup (keys kw) -> get (filter_kwargs p kw) k = get kw (p ++ k).
Proof. intros ND. unfold filter_kwargs. rewrite filter_fold by exact ND. destruct (get kw (p ++ k)); reflexivity. Qed.
Lemma filter_nodup {A} p (kw : dict A) : NoDup (keys (filter_kwargs p kw)).
Proof.
  unfold filter_kwargs. assert (H : forall acc, NoDup (keys acc) -> NoDup (keys (fold_left (fun d x => if startswith (fst x) p then set d (drop (length p) (fst x)) (snd x) else d) kw acc))); [|apply H; constructor].
  induction kw as [|x kw IH]; intros acc Ha; [exact Ha|]. cbn [fold_left]. apply IH. destruct (startswith (fst x) p); [apply set_nodup|]; exact Ha.
Qed.

Section Layers.
Context {V : Type}.
Variables (none_act none_weight none_bias : dict (spec V)) (no_impl passthrough : spec V).
Notation layer_init := (layer_init none_act none_weight none_bias no_impl passthrough).
Notation act_layer_init := (act_layer_init none_act no_impl passthrough).
(** The injector behind a quantizer argument: the disabled one for None. *)
Definition base_of (none : dict (spec V)) (q : quant_arg V) : option (dict (spec V)) :=
  match q with QNone => Some none | QInjector d => Some d | _ => None end.
(** [fits p none prefix kw q]: proxy [p] is built from [q], or [none] for None, with every attribute [k]
    overridden by keyword [prefix ++ k] where given; a proxy passed as quantizer is used as it is. *)
Definition fits (p : proxy V) (none : dict (spec V)) (prefix : string) (kw : dict (spec V)) (q : quant_arg V) : Prop :=
  match base_of none q with
  | Some d => exists d', p = Built d' /\ forall k, get d' k = match get kw (prefix ++ k) with Some s => Some s | None => get d k end
  | None => match q with QProxy id => exists w, p = Shared id w /\ (w = true <-> exists k, get kw (prefix ++ k) <> None) | _ => False end
  end.
Definition nodup_arg (q : quant_arg V) : Prop := match q with QInjector d => NoDup (keys d) | _ => True end.
Lemma proxy_fits none prefix kw q p : NoDup (keys none) -> nodup_arg q -> NoDup (keys kw) -> proxy_init none prefix kw q = Some p -> fits p none prefix kw q.
Proof.
  intros Nn Nq Nk H. unfold fits. destruct q as [|d|id|]; cbn [proxy_init base_of nodup_arg] in *; try discriminate; injection H as <-.
  - eexists. split; [reflexivity|]. intros k. rewrite C93_let by (try exact Nn; apply filter_nodup). rewrite C93_filter by exact Nk. reflexivity.
  - eexists. split; [reflexivity|]. intros k. rewrite C93_let by (try exact Nq; apply filter_nodup). rewrite C93_filter by exact Nk. reflexivity.
  - eexists. split; [reflexivity|]. destruct (filter_kwargs prefix kw) as [|[a v] r] eqn:E; (split; [intros W|intros (k & K)]); try discriminate; try reflexivity.
    + rewrite <- (C93_filter prefix kw k Nk), E in K. cbn in K. congruence.
    + exists a. rewrite <- (C93_filter prefix kw a Nk), E. cbn [get]. rewrite String.eqb_refl. discriminate.
Qed.
Lemma extend_ok (extra kw kw' : dict (spec V)) : NoDup (keys extra) -> NoDup (keys kw) -> extend extra kw = Some kw' ->
  NoDup (keys kw') /\ forall k, get kw' k = match get kw k with Some s => Some s | None => get extra k end.
Proof.
  intros Ne Nk H. unfold extend in H. destruct (existsb _ _) eqn:E; [discriminate|]. injection H as <-.
  assert (Hd : forall x, In x (keys extra) -> ~ In x (keys kw)).
  { intros x Hx Hk. apply in_map_iff in Hx. destruct Hx as (e & <- & He). assert (X : existsb (fun x => mem (fst x) (keys kw)) extra = true); [|congruence].
    apply existsb_exists. exists e. split; [exact He|apply mem_in; exact Hk]. }
  clear E. split.
  - unfold keys in *. rewrite map_app. induction extra as [|e extra IH]; [exact Nk|]. cbn [map app] in *. inversion Ne as [|? ? NI Ne']; subst. constructor.
    + rewrite in_app_iff. intros [H|H]; [exact (NI H)|]. exact (Hd (fst e) (or_introl eq_refl) H).
    + apply IH; [exact Ne'|]. intros x Hx. apply Hd. right. exact Hx.
  - intros k. induction extra as [|[a s] extra IH]; cbn [app get]; [destruct (get kw k); reflexivity|]. inversion Ne as [|? ? NI Ne']; subst.
    assert (Hd' : forall x, In x (keys extra) -> ~ In x (keys kw)) by (intros x Hx; apply Hd; right; exact Hx).
    destruct (String.eqb_spec a k) as [->|N]; [|exact (IH Ne' Hd')]. rewrite (proj2 (get_notin kw k)); [reflexivity|]. apply Hd. left. reflexivity.
Qed.
(** The keywords an activation quantizer sees besides those of the user. *)
Definition with_act (prefix : string) (impl pass : spec V) (kw : dict (spec V)) : dict (spec V) := app kw [(prefix ++ "act_impl", impl); (prefix ++ "passthrough_act", pass)].
Lemma get_app {A} (d e : dict A) k : get (d ++ e)%list k = match get d k with Some v => Some v | None => get e k end.
Proof. induction d as [|[a v] d IH]; [reflexivity|]. cbn [app get]. destruct (String.eqb a k); [reflexivity|exact IH]. Qed.
Lemma pair_nodup (prefix : string) (a b : spec V) : NoDup (keys [(prefix ++ "act_impl", a); (prefix ++ "passthrough_act", b)]).
Proof. repeat constructor; cbn; [|tauto]. intros [E|[]]. apply app_inj in E. discriminate. Qed.
Lemma fits_ext p none prefix kw kw' q : (forall k, get kw k = get kw' k) -> fits p none prefix kw q -> fits p none prefix kw' q.
Proof.
  intros E. unfold fits. destruct (base_of none q) as [d|].
  - intros (d' & H & K). exists d'. split; [exact H|]. intros k. rewrite <- E. apply K.
  - destruct q; try tauto. intros (w & H & K). exists w. split; [exact H|]. rewrite K. split; intros (k & G); exists k; congruence.
Qed.
Lemma act_fits prefix impl pass q kw p : NoDup (keys none_act) -> nodup_arg q -> NoDup (keys kw) -> act_mixin none_act prefix impl pass q kw = Some p ->
  fits p none_act prefix (with_act prefix impl pass kw) q.
Proof.
  intros Nn Nq Nk H. unfold act_mixin in H. destruct (extend _ kw) as [kw'|] eqn:E; [|discriminate].
  destruct (extend_ok _ kw kw' (pair_nodup prefix impl pass) Nk E) as [Nk' G]. eapply fits_ext; [|exact (proxy_fits _ _ kw' q p Nn Nq Nk' H)].
  intros k. rewrite G. unfold with_act. rewrite get_app. reflexivity.
Qed.
(** Each quantizer of a weighted layer is the given one with exactly the keywords of its prefix; the
    activation ones also get act_impl and passthrough_act. *)
Theorem C93_layer qi qo qw qb kw r : NoDup (keys none_act) -> NoDup (keys none_weight) -> NoDup (keys none_bias) -> nodup_arg qi -> nodup_arg qo -> nodup_arg qw -> nodup_arg qb -> NoDup (keys kw) ->
  layer_init qi qo qw qb kw = Some r ->
  fits (input_p r) none_act "input_" (with_act "input_" no_impl passthrough kw) qi /\ fits (output_p r) none_act "output_" (with_act "output_" no_impl passthrough kw) qo
  /\ fits (weight_p r) none_weight "weight_" kw qw /\ fits (bias_p r) none_bias "bias_" kw qb.
Proof.
  intros N1 N2 N3 Q1 Q2 Q3 Q4 Nk H. unfold Inject.layer_init in H.
  destruct (io_mixin none_act no_impl passthrough "input_" qi kw) as [i|] eqn:Ei; [|discriminate]. destruct (io_mixin none_act no_impl passthrough "output_" qo kw) as [o|] eqn:Eo; [|discriminate].
  destruct (weight_mixin none_weight qw kw) as [w|] eqn:Ew; [|discriminate]. destruct (bias_mixin none_bias qb kw) as [b|] eqn:Eb; [|discriminate]. injection H as <-. cbn [input_p output_p weight_p bias_p].
  split; [exact (act_fits "input_" no_impl passthrough qi kw i N1 Q1 Nk Ei)|]. split; [exact (act_fits "output_" no_impl passthrough qo kw o N1 Q2 Nk Eo)|].
  split; [exact (proxy_fits _ _ _ _ _ N2 Q3 Nk Ew)|exact (proxy_fits _ _ _ _ _ N3 Q4 Nk Eb)].
Qed.
(** The construction succeeds unless something that is no quantizer is passed, or a keyword sets
    act_impl or passthrough_act of the input or output. *)
Theorem C93_layer_succeeds qi qo qw qb kw :
  layer_init qi qo qw qb kw <> None <->
  (qi <> QOther /\ qo <> QOther /\ qw <> QOther /\ qb <> QOther)
  /\ forall k, In k ["input_act_impl"; "input_passthrough_act"; "output_act_impl"; "output_passthrough_act"] -> get kw k = None.
Proof.
  assert (Pr : forall none pre k q, proxy_init none pre k q <> None <-> q <> @QOther V) by (intros none pre k q; destruct q; cbn; split; congruence).
  assert (Io : forall pre q, io_mixin none_act no_impl passthrough pre q kw <> None <-> q <> QOther /\ get kw (pre ++ "act_impl") = None /\ get kw (pre ++ "passthrough_act") = None).
  { intros pre q. unfold io_mixin, extend. cbn [existsb fst]. rewrite orb_false_r.
    assert (M : forall k, mem k (keys kw) = false <-> get kw k = None).
    { intros k. rewrite get_notin, <- mem_in. destruct (mem k (keys kw)); split; congruence. }
    rewrite <- !M. destruct (mem (pre ++ "act_impl") (keys kw)), (mem (pre ++ "passthrough_act") (keys kw)); cbn [orb]; try (split; [congruence|intros (_ & ? & ?); discriminate]).
    rewrite Pr. split; [intros H; repeat split; exact H|tauto]. }
  pose proof (Io "input_" qi) as I1. pose proof (Io "output_" qo) as I2. pose proof (Pr none_weight "weight_" kw qw) as P1. pose proof (Pr none_bias "bias_" kw qb) as P2.
  unfold Inject.layer_init, weight_mixin, bias_mixin. cbn [append] in I1, I2. cbn [In].
  destruct (io_mixin none_act no_impl passthrough "input_" qi kw); [|split; [congruence|]].
  2: { intros ((A & _) & B). exfalso. apply (proj2 I1); [|reflexivity]. split; [exact A|]. split; [apply B; left|apply B; right; left]; reflexivity. }
  destruct (io_mixin none_act no_impl passthrough "output_" qo kw); [|split; [congruence|]].
  2: { intros ((_ & A & _) & B). exfalso. apply (proj2 I2); [|reflexivity]. split; [exact A|]. split; [apply B; right; right; left|apply B; right; right; right; left]; reflexivity. }
  destruct (proxy_init none_weight "weight_" kw qw); [|split; [congruence|]].
  2: { intros ((_ & _ & A & _) & B). exfalso. apply (proj2 P1 A). reflexivity. }
  destruct (proxy_init none_bias "bias_" kw qb); [|split; [congruence|]].
  2: { intros ((_ & _ & _ & A) & B). exfalso. apply (proj2 P2 A). reflexivity. }
  split; [|discriminate]. intros _. destruct (proj1 I1 ltac:(discriminate)) as (A1 & A2 & A3). destruct (proj1 I2 ltac:(discriminate)) as (B1 & B2 & B3).
  split; [repeat split; [exact A1|exact B1|apply P1; discriminate|apply P2; discriminate]|]. intros k [<-|[<-|[<-|[<-|[]]]]]; assumption.
Qed.
(** A keyword with none of the four prefixes changes nothing: a misspelt one goes unnoticed. *)
Lemma filter_app_other {A} p (a : string) (v : A) kw1 kw2 : startswith a p = false -> filter_kwargs p (kw1 ++ (a, v) :: kw2)%list = filter_kwargs p (kw1 ++ kw2)%list.
Proof. intros H. unfold filter_kwargs. rewrite !fold_left_app. cbn [fold_left fst]. rewrite H. reflexivity. Qed.
Theorem C93_unknown_ignored qi qo qw qb kw1 a s kw2 : (forall p, In p ["input_"; "output_"; "weight_"; "bias_"] -> startswith a p = false) ->
  layer_init qi qo qw qb (kw1 ++ (a, s) :: kw2)%list = layer_init qi qo qw qb (kw1 ++ kw2)%list.
Proof.
  intros H. assert (P : forall none p q ex, In p ["input_"; "output_"; "weight_"; "bias_"] -> proxy_init none p (ex ++ kw1 ++ (a, s) :: kw2)%list q = proxy_init none p (ex ++ kw1 ++ kw2)%list q).
  { intros none p q ex Hp. assert (E : filter_kwargs p (ex ++ kw1 ++ (a, s) :: kw2)%list = filter_kwargs p (ex ++ kw1 ++ kw2)%list).
    { rewrite !app_assoc. apply filter_app_other. apply H. exact Hp. }
    unfold proxy_init. rewrite E. reflexivity. }
  assert (M : forall x p, In p ["input_"; "output_"; "weight_"; "bias_"] -> startswith x p = true -> mem x (keys (kw1 ++ (a, s) :: kw2)%list) = mem x (keys (kw1 ++ kw2)%list)).
  { intros x p Hp Hx. unfold keys, mem. rewrite !map_app, !existsb_app. cbn [map existsb fst]. destruct (String.eqb_spec x a) as [->|]; [rewrite (H p Hp) in Hx; discriminate|reflexivity]. }
  assert (Io : forall p q, In p ["input_"; "output_"; "weight_"; "bias_"] -> io_mixin none_act no_impl passthrough p q (kw1 ++ (a, s) :: kw2)%list = io_mixin none_act no_impl passthrough p q (kw1 ++ kw2)%list).
  { intros p q Hp. unfold io_mixin, extend. cbn [existsb fst]. rewrite !(M _ p Hp) by apply startswith_app. destruct (_ || _); [reflexivity|]. apply P. exact Hp. }
  unfold Inject.layer_init. assert (In1 : forall p, p = "input_" \/ p = "output_" \/ p = "weight_" \/ p = "bias_" -> In p ["input_"; "output_"; "weight_"; "bias_"]) by (intros p [->|[->|[->| ->]]]; [left|right; left|right; right; left|right; right; right; left]; reflexivity).
  rewrite (Io "input_" qi (In1 _ (or_introl eq_refl))), (Io "output_" qo (In1 _ (or_intror (or_introl eq_refl)))). unfold weight_mixin, bias_mixin.
  pose proof (P none_weight "weight_" qw [] (In1 _ (or_intror (or_intror (or_introl eq_refl))))) as Pw. pose proof (P none_bias "bias_" qb [] (In1 _ (or_intror (or_intror (or_intror eq_refl))))) as Pb.
  cbn [app] in Pw, Pb. rewrite Pw, Pb. reflexivity.
Qed.
(** No keyword reaches two of them. *)
Theorem C93_one_target a p q : In p ["input_"; "output_"; "weight_"; "bias_"] -> In q ["input_"; "output_"; "weight_"; "bias_"] -> startswith a p = true -> startswith a q = true -> p = q.
Proof.
  intros Hp Hq Sp Sq. apply startswith_split in Sp. apply startswith_split in Sq. rewrite Sp in Sq.
  destruct Hp as [<-|[<-|[<-|[<-|[]]]]], Hq as [<-|[<-|[<-|[<-|[]]]]]; try reflexivity; cbn in Sq; discriminate.
Qed.
(** An activation layer: the activation quantizer takes every keyword, the ones of the input quantizer
    included. *)
Theorem C93_act_layer impl pass qi qa kw i a : NoDup (keys none_act) -> nodup_arg qi -> nodup_arg qa -> NoDup (keys kw) ->
  act_layer_init "" impl pass qi qa kw = Some (i, a) ->
  fits i none_act "input_" (with_act "input_" no_impl passthrough kw) qi
  /\ match base_of none_act qa with
     | Some d => exists d', a = Built d' /\ forall k, get d' k = match get kw k with Some s => Some s | None => if String.eqb k "act_impl" then Some impl else if String.eqb k "passthrough_act" then Some pass else get d k end
     | None => True
     end.
Proof.
  intros N1 Q1 Q2 Nk H. unfold Inject.act_layer_init in H. destruct (io_mixin none_act no_impl passthrough "input_" qi kw) as [i'|] eqn:Ei; [|discriminate].
  destruct (act_mixin none_act "" impl pass qa kw) as [a'|] eqn:Ea; [|discriminate]. injection H as <- <-. split; [exact (act_fits "input_" no_impl passthrough qi kw i' N1 Q1 Nk Ei)|].
  pose proof (act_fits "" impl pass qa kw a' N1 Q2 Nk Ea) as F. unfold fits in F. destruct (base_of none_act qa) as [d|]; [|exact I]. destruct F as (d' & E & F). exists d'. split; [exact E|].
  intros k. rewrite F. unfold with_act. rewrite get_app. cbn [append get]. destruct (get kw k); [reflexivity|]. rewrite (String.eqb_sym k "act_impl"), (String.eqb_sym k "passthrough_act").
  destruct (String.eqb "act_impl" k); [reflexivity|]. destruct (String.eqb "passthrough_act" k); reflexivity.
Qed.
End Layers.

(** The keyword that sets the accumulator bit width of an LSTM is ignored by an RNN. *)
Theorem C93_rnn_gate_acc_refuted : exists (kw : dict (spec nat)) (d : dict (spec nat)),
  (exists d1, option_map snd (lstm_gate_acc [] (const 0) (const 1) (const 0) (const 1) (QInjector d) kw) = Some (Built d1) /\ get d1 "bit_width" = Some (const 4))
  /\ (exists d2, option_map snd (rnn_gate_acc [] (const 0) (const 1) (const 0) (const 1) (QInjector d) kw) = Some (Built d2) /\ get d2 "bit_width" = Some (const 8)).
Proof. exists [("gate_acc_bit_width", const 4)], [("bit_width", const 8)]. split; eexists; split; vm_compute; reflexivity. Qed.

(** ** Instances *)
Definition int8 : dict (spec nat) := [("bit_width", const 8); ("signed", const 1)].
Definition some_kw : dict (spec nat) := [("weight_bit_width", const 4); ("input_bit_width", const 6); ("bit_width", const 2)].
Example C93_ex : exists r, layer_init [] [] [] (const 0) (const 1) (QInjector int8) QNone (QInjector int8) (QProxy 3) some_kw = Some r
  /\ weight_p r = Built [("bit_width", const 4); ("signed", const 1)] /\ bias_p r = Shared 3 false
  /\ input_p r = Built [("bit_width", const 6); ("signed", const 1); ("act_impl", const 0); ("passthrough_act", const 1)].
Proof. eexists. repeat split; vm_compute; reflexivity. Qed.
Example C93_ex_hyps : NoDup (keys int8) /\ NoDup (keys some_kw) /\ (forall p, In p ["input_"; "output_"; "weight_"; "bias_"] -> startswith "bit_width" p = false).
Proof. split; [|split]; [repeat constructor; cbn; intuition discriminate|repeat constructor; cbn; intuition discriminate|]. intros p [<-|[<-|[<-|[<-|[]]]]]; reflexivity. Qed.
Example C93_ex_act : exists i, act_layer_init [] (const 0) (const 1) "" (const 5) (const 0) (QInjector int8) (QInjector int8) some_kw
  = Some (i, Built [("bit_width", const 2); ("signed", const 1); ("act_impl", const 5); ("passthrough_act", const 0); ("weight_bit_width", const 4); ("input_bit_width", const 6)]).
Proof. eexists. vm_compute. reflexivity. Qed.
Example C93_ex_tree : dicts both_q /\ get (deps_of both_q) "signed" = Some (const 1).
Proof. split; [cbn; repeat split; repeat constructor; cbn; tauto|reflexivity]. Qed.

Print Assumptions C93_depth_first.
Print Assumptions C93_let.
Print Assumptions C93_diamond_refuted.
Print Assumptions C93_filter.
Print Assumptions C93_layer.
Print Assumptions C93_layer_succeeds.
Print Assumptions C93_unknown_ignored.
Print Assumptions C93_one_target.
Print Assumptions C93_act_layer.
Print Assumptions C93_rnn_gate_acc_refuted.
