(** C92: the value of an attribute of an injector. *)
From Coq Require Import List Bool String Arith Lia.
From Verif Require Import StateDict StateDictProps Inject InjectProofs.
Import ListNotations.
Open Scope string_scope.

(** The specification is [has] of InjectProofs.v: arguments are resolved recursively, an absent argument
    with a default is left out, a class is instantiated unless the name ends in "_class" or the
    definition is a nested injector, and a [this] expression is followed.  [__self__] is no attribute
    that can be defined (L87-89 [_check_dunder_name]). *)

(** What the loop returns is the value of the attribute. *)
Theorem C92_sound {V} check (self : V) d a fuel v d' l :
  get d "__self__" = None -> getattr check self fuel d a = Done v d' l -> has self d a v.
Proof. intros S0 H. exact (loop_sound self check d a S0 fuel (start self d a) v d' l (start_inv self check d a) H). Qed.

(** An attribute has one value. *)
Theorem C92_one_value {V} (self : V) d a v w : has self d a v -> has self d a w -> v = w.
Proof. apply has_det. Qed.

(** An attribute that has a value is found, whatever else the injector defines. *)
Theorem C92_complete {V} check (self : V) d a v :
  (forall d, check d = true) -> get d "__self__" = None -> has self d a v ->
  exists fuel d' l, forall fuel', fuel <= fuel' -> getattr check self fuel' d a = Done v d' l.
Proof. intros C S0 H. exact (getattr_complete self check C d a v S0 H). Qed.

(** An access builds no attribute twice, and none the attribute does not depend on. *)
Theorem C92_built_once {V} check (self : V) d a fuel v d' l : a <> "__self__" ->
  getattr check self fuel d a = Done v d' l -> NoDup l /\ forall x, In x l -> uses d a x.
Proof.
  intros Ns H. split.
  - eapply (loop_once check a); [|exact H]. split; [constructor|]. split; [intros x []|]. right. exists []. split; [reflexivity|]. split; [|split; [exact I|split; reflexivity]].
    intros x [<-|[]]. cbn [cur cached mem existsb]. rewrite orb_false_r. apply String.eqb_neq. exact Ns.
  - eapply (loop_uses check d a); [|exact H]. split; [|split].
    + intros x sp G. exists sp. split; [exact G|constructor].
    + intros x [<-|[<-|[]]]; constructor.
    + intros x [].
Qed.

(** After an access that returns, the injector is what it was, as long as what a class or a [this]
    expression stands for is no further class or [this] expression. *)
Theorem C92_restored {V} check (self : V) d a fuel v d' l : NoDup (keys d) -> simple d -> getattr check self fuel d a = Done v d' l -> d' = d.
Proof.
  intros ND Si H. eapply (loop_restored check d a ND Si); [|exact H]. constructor; cbn [deps replaced]; try reflexivity.
  - intros b s' G. left. split; [exact G|reflexivity].
  - constructor.
Qed.

(** Overriding attributes that [a] does not depend on leaves the value of [a]. *)
Theorem C92_local {V} (self : V) d e a v : (forall x, uses d a x -> get d x = get e x) -> has self d a v -> has self e a v.
Proof. intros U H. exact (proj1 (has_agree self d e) a v H U). Qed.

(** ** Findings *)
Definition const (v : nat) : spec nat := Spec false [] 1 (fun _ => Val v).
(** A definition that chooses a class by [kind]; class 10 needs an argument [x]. *)
Definition class10 : spec nat := Spec false ["x"] 2 (fun kw => Val (10 + list_sum (map snd kw))).
Definition class20 : spec nat := Spec false [] 1 (fun _ => Val 20).
Definition impl : spec nat := Spec false ["kind"] 2 (fun kw => match get kw "kind" with Some 0 => Class 1 class10 | _ => Class 2 class20 end).
Definition quantizer : dict (spec nat) := [("kind", const 0); ("impl", impl)].
Definition fix_kw : dict (spec nat) := [("kind", const 1); ("x", const 5)].
(** An access that raises midway leaves the chosen class in place of the definition that chose it: an
    injector derived afterwards ignores the attribute that makes the choice. *)
Theorem C92_exception_refuted : exists (d kw d1 : dict (spec nat)) (a : string),
  getattr (fun _ => true) 0 10 d a = Error d1 /\ d1 <> d
  /\ has 0 (let_ d kw) a 20 /\ (exists d2 l, getattr (fun _ => true) 0 20 (let_ d1 kw) a = Done 15 d2 l) /\ has 0 (let_ d1 kw) a 15.
Proof.
  set (d1 := [("kind", const 0); ("impl", class10)]). exists quantizer, fix_kw, d1, "impl".
  assert (L : exists d2 l, getattr (fun _ => true) 0 20 (let_ d1 fix_kw) "impl" = Done 15 d2 l) by (do 2 eexists; vm_compute; reflexivity).
  assert (L' : exists d2 l, getattr (fun _ => true) 0 20 (let_ quantizer fix_kw) "impl" = Done 20 d2 l) by (do 2 eexists; vm_compute; reflexivity).
  split; [vm_compute; reflexivity|]. split; [|split; [|split; [exact L|]]].
  - intros E. apply (f_equal (fun d => option_map (fun s => args s) (get d "impl"))) in E. vm_compute in E. discriminate.
  - destruct L' as (d2 & l & E). eapply C92_sound; [|exact E]. reflexivity.
  - destruct L as (d2 & l & E). eapply C92_sound; [|exact E]. reflexivity.
Qed.
(** A definition returning a [this] expression that gives a class is replaced twice, and only the second
    replacement is undone: the access succeeds but the condition of the definition is gone. *)
Definition this_class (b : bool) : spec nat := Spec false ["__self__"] 2 (fun _ => if b then Class 1 (const 11) else Class 2 (const 22)).
Definition chosen : spec nat := Spec false ["kind"] 2 (fun kw => match get kw "kind" with Some 0 => This (this_class true) | _ => This (this_class false) end).
Definition twice : dict (spec nat) := [("kind", const 0); ("impl", chosen)].
Theorem C92_twice_refuted : exists (d d1 kw : dict (spec nat)) (a : string) l,
  getattr (fun _ => true) 0 20 d a = Done 11 d1 l /\ d1 <> d /\ has 0 (let_ d kw) a 22 /\ has 0 (let_ d1 kw) a 11.
Proof.
  set (d1 := [("kind", const 0); ("impl", this_class true)]). exists twice, d1, [("kind", const 1)], "impl".
  assert (L : exists d2 l, getattr (fun _ => true) 0 20 (let_ d1 [("kind", const 1)]) "impl" = Done 11 d2 l) by (do 2 eexists; vm_compute; reflexivity).
  assert (L' : exists d2 l, getattr (fun _ => true) 0 20 (let_ twice [("kind", const 1)]) "impl" = Done 22 d2 l) by (do 2 eexists; vm_compute; reflexivity).
  eexists. split; [vm_compute; reflexivity|]. split; [|split].
  - intros E. apply (f_equal (fun d => option_map (fun s => args s) (get d "impl"))) in E. vm_compute in E. discriminate.
  - destruct L' as (d2 & l & E). eapply C92_sound; [|exact E]. reflexivity.
  - destruct L as (d2 & l & E). eapply C92_sound; [|exact E]. reflexivity.
Qed.

(** ** Instances *)
(** A small quantizer: [bits] is shared by two parts, [scale] is a class chosen by [kind] with a default
    argument [offset] that nobody defines, [parts_class] keeps the class. *)
Definition scale_init : spec nat := Spec false ["bits"; "offset"] 2 (fun kw => Val (100 + list_sum (map snd kw))).
Definition scale_spec : spec nat := Spec false ["kind"] 2 (fun _ => Class 7 scale_init).
Definition demo : dict (spec nat) :=
  [("kind", const 0); ("bits", const 8);
   ("scale", scale_spec);
   ("zero", Spec false ["bits"; "scale"] 3 (fun kw => Val (list_sum (map snd kw))));
   ("scale_class", Spec false [] 1 (fun _ => Class 7 (const 0)));
   ("quant", Spec false ["scale"; "zero"; "scale_class"] 4 (fun kw => Val (list_sum (map snd kw))))].
Example C92_ex : exists d', getattr (fun _ => true) 0 40 demo "quant" = Done (108 + 116 + 7) d' ["kind"; "bits"; "scale"; "zero"; "scale_class"; "quant"] /\ d' = demo.
Proof. eexists. split; vm_compute; reflexivity. Qed.
Example C92_ex_has : has 0 demo "quant" 231.
Proof. destruct C92_ex as (d' & E & _). eapply C92_sound; [|exact E]. reflexivity. Qed.
Example C92_ex_simple : simple quantizer /\ NoDup (keys quantizer).
Proof.
  split; [|repeat constructor; cbn; intuition discriminate]. intros a s. cbn [quantizer get].
  destruct (String.eqb "kind" a); [intros E; injection E as <-; intros kw; exact I|]. destruct (String.eqb "impl" a); [|discriminate]. intros E; injection E as <-. intros kw.
  unfold call, impl. destruct (forallb _ _); [|exact I]. cbn [run]. destruct (get kw "kind") as [[|?]|]; right; intros kw'; unfold call; destruct (forallb _ _); exact I.
Qed.
Example C92_ex_local : has 0 (set demo "other" (const 3)) "scale" 108.
Proof.
  apply (C92_local 0 demo); [|assert (E : exists d' l, getattr (fun _ => true) 0 40 demo "scale" = Done 108 d' l) by (do 2 eexists; vm_compute; reflexivity); destruct E as (d' & l & E); eapply C92_sound; [reflexivity|exact E]].
  assert (U : forall x, uses demo "scale" x -> In x ["scale"; "kind"; "bits"; "offset"]).
  { assert (K0 : forall u w, becomes u w -> forall n, u = const n -> w = const n).
    { clear. intros u w B. induction B as [u|u u' kw v i _ IH R|u u' kw t _ IH R]; intros n E; [exact E| |]; rewrite (IH n E) in R; discriminate. }
    intros x H. induction H as [|x s s' y _ IH G B Hy]; [left; reflexivity|].
    destruct IH as [<-|[<-|[<-|[<-|[]]]]]; cbn in G; try discriminate; injection G as <-.
    - assert (Bs : args s' = ["kind"] \/ args s' = ["bits"; "offset"]).
      { assert (K : forall u w, becomes u w -> u = scale_spec -> w = scale_spec \/ w = scale_init).
        { clear. intros u w B. induction B as [u|u u' kw v i _ IH R|u u' kw t _ IH R]; intros E; [left; exact E| |]; destruct (IH E) as [->| ->]; cbn in R; try discriminate. right. congruence. }
        destruct (K _ _ B eq_refl) as [->| ->]; [left|right]; reflexivity. }
      destruct Bs as [Bs|Bs]; rewrite Bs in Hy; cbn in Hy; intuition (subst; cbn; tauto).
    - rewrite (K0 _ _ B _ eq_refl) in Hy. destruct Hy.
    - rewrite (K0 _ _ B _ eq_refl) in Hy. destruct Hy. }
  intros x Hx. apply U in Hx. destruct Hx as [<-|[<-|[<-|[<-|[]]]]]; reflexivity.
Qed.

Print Assumptions C92_sound.
Print Assumptions C92_one_value.
Print Assumptions C92_complete.
Print Assumptions C92_built_once.
Print Assumptions C92_restored.
Print Assumptions C92_local.
Print Assumptions C92_exception_refuted.
Print Assumptions C92_twice_refuted.
