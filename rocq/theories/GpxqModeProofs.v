(** Lemmas for GpxqModeProps.v. *)
From Coq Require Import String List Bool Arith Lia Permutation.
From Verif Require Import GpxqMode.
Import ListNotations.
Open Scope list_scope.
Open Scope nat_scope.

Definition mem (n : string) (l : list string) : bool := existsb (String.eqb n) l.
Lemma mem_in n l : mem n l = true <-> In n l.
Proof.
  unfold mem. rewrite existsb_exists. split; [intros (x & H & E); apply String.eqb_eq in E; subst; exact H|]. intros H. exists n. split; [exact H|apply String.eqb_refl].
Qed.
Lemma mem_not n l : mem n l = false <-> ~ In n l.
Proof. rewrite <- mem_in. destruct (mem n l); split; congruence. Qed.
Lemma mem_app n a b : mem n (a ++ b) = mem n a || mem n b.
Proof. apply existsb_app. Qed.
(** Position of the first call. *)
Fixpoint first_pos (n : string) (cs : list string) : nat :=
  match cs with [] => 0 | c :: cs => if String.eqb c n then 0 else S (first_pos n cs) end.
Lemma hook_of_some n (h : list (string * nat)) l : NoDup (map fst h) -> hook_of n h = Some l <-> In (n, l) h.
Proof.
  intros N. unfold hook_of. induction h as [|[m k] h IH]; [split; [discriminate|intros []]|]. cbn [find fst map] in *. inversion N as [|? ? N1 N2]; subst. destruct (String.eqb_spec m n) as [->|D].
  - cbn [snd]. split; [intros E; injection E as ->; left; reflexivity|]. intros [E|E]; [injection E as ->; reflexivity|]. exfalso. apply N1. apply (in_map fst) in E. exact E.
  - rewrite IH by exact N2. split; [right; assumption|]. intros [E|E]; [injection E; congruence|exact E].
Qed.
Lemma hook_of_none n (h : list (string * nat)) : hook_of n h = None <-> ~ In n (map fst h).
Proof.
  unfold hook_of. induction h as [|[m k] h IH]; [split; [intros _ []|reflexivity]|]. cbn [find fst map]. destruct (String.eqb_spec m n) as [->|D].
  - split; [discriminate|]. intros H. exfalso. apply H. left. reflexivity.
  - rewrite IH. split; [intros H [E|E]; [congruence|exact (H E)]|]. intros H E. apply H. right. exact E.
Qed.
Definition hooked (h : list (string * nat)) (n : string) : bool := match hook_of n h with Some _ => true | None => false end.
Lemma hooked_in h n : hooked h n = true <-> In n (map fst h).
Proof.
  unfold hooked. destruct (hook_of n h) eqn:E.
  - split; [intros _|reflexivity]. destruct (in_dec string_dec n (map fst h)) as [H|H]; [exact H|]. apply hook_of_none in H. congruence.
  - split; [discriminate|]. intros H. apply hook_of_none in E. contradiction.
Qed.
Lemma NoDup_app_l {A} (a b : list A) : NoDup (a ++ b) -> NoDup a.
Proof. induction a as [|x a IH]; intros H; [constructor|]. inversion H; subst. constructor; [intros K; apply H2; apply in_or_app; left; exact K|apply IH; assumption]. Qed.

Section Mode.
Context {W I B O : Type}.
Variable calls : list string.
Variable input : bool -> B -> nat -> (string -> W) -> I.
Variable output : bool -> B -> (string -> W) -> O.
Variable solve : string -> list (bool * I) -> W -> W.
(** The input of a call depends on the weights of the layers called before it. *)
Hypothesis input_local : forall q b j w w', (forall n, In n (firstn j calls) -> w n = w' n) -> input q b j w = input q b j w'.

Notation state := (@state W I).

(** *** A pass *)
Definition rec1 (q : bool) (b : B) (st : state) (j : nat) (cs : list string) (r : list string) (n : string) : list (bool * I) :=
  if mem n r then collected st n ++ [(q, input q b (j + first_pos n cs) (seen q st))] else collected st n.
Lemma pass_spec q b : forall cs r st j m rest, NoDup r -> r <> [] -> filter (hooked (hooks st)) cs = r ++ rest -> (forall n, In n r -> hook_of n (hooks st) = Some m) -> count st + length r = m ->
  exists c', pass input false q b j cs st = (St (weight st) (weight_orig st) (hooks st) (fold_left (fun l n => add_name n l) r (names st)) 0 c', true)
  /\ forall n, c' n = rec1 q b st j cs r n.
Proof.
  induction cs as [|c cs IH]; intros r st j m rest N Ne F L C; [destruct r; [congruence|discriminate]|]. cbn [pass filter] in *. unfold hooked at 1 in F. destruct (hook_of c (hooks st)) as [len|] eqn:Hc.
  - destruct r as [|c' r]; [congruence|]. injection F as <- F. assert (len = m) by (rewrite (L c) in Hc by (left; reflexivity); congruence). subst len. inversion N as [|? ? N1 N2]; subst. unfold update_batch. cbn [length] in *.
    destruct r as [|c2 r].
    + cbn [length] in *. rewrite (proj2 (Nat.eqb_eq _ _)) by lia. cbn [weight weight_orig hooks names collected fold_left]. eexists. split; [reflexivity|]. intros n. unfold rec1, upd, mem. cbn [existsb first_pos]. rewrite (String.eqb_sym c n). destruct (String.eqb_spec n c) as [->|]; cbn [orb]; [|reflexivity].
      rewrite Nat.add_0_r. reflexivity.
    + rewrite (proj2 (Nat.eqb_neq _ _)) by (cbn [length] in *; lia). set (st1 := St _ _ _ _ _ _) at 1. destruct (IH (c2 :: r) st1 (S j) (count st + S (S (length r))) rest N2 ltac:(discriminate) F) as (c' & P & E).
      * intros n Hn. apply L. right. exact Hn.
      * cbn [st1 count length]. lia.
      * exists c'. split; [exact P|]. intros n. rewrite E. unfold rec1. cbn [st1 collected seen weight weight_orig]. unfold upd. destruct (String.eqb_spec n c) as [->|D].
        -- assert (M : mem c (c2 :: r) = false) by (apply mem_not; exact N1). rewrite M. unfold mem at 1. cbn [existsb]. rewrite String.eqb_refl. cbn [orb first_pos]. rewrite String.eqb_refl, Nat.add_0_r. reflexivity.
        -- assert (M : mem n (c :: c2 :: r) = mem n (c2 :: r)) by (unfold mem; cbn [existsb]; rewrite (proj2 (String.eqb_neq n c) D); reflexivity). rewrite M. cbn [first_pos]. rewrite (proj2 (String.eqb_neq c n)) by congruence. rewrite Nat.add_succ_r. reflexivity.
  - destruct (IH r st (S j) m rest N Ne F L C) as (c' & P & E). exists c'. split; [exact P|]. intros n. rewrite E. unfold rec1. destruct (mem n r) eqn:M; [|reflexivity]. apply mem_in in M. cbn [first_pos].
    assert (D : c <> n) by (intros ->; rewrite (L n M) in Hc; discriminate). rewrite (proj2 (String.eqb_neq c n) D), Nat.add_succ_r. reflexivity.
Qed.
Lemma pass_none q b : forall cs (st : state) j, filter (hooked (hooks st)) cs = [] -> pass input false q b j cs st = (st, false).
Proof.
  induction cs as [|c cs IH]; intros st j F; [reflexivity|]. cbn [pass filter] in *. unfold hooked at 1 in F. destruct (hook_of c (hooks st)); [discriminate|]. apply IH. exact F.
Qed.
Lemma pass_disabled q b : forall cs (st : state) j, pass input true q b j cs st = (st, false).
Proof. induction cs as [|c cs IH]; intros st j; [reflexivity|]. cbn [pass]. apply IH. Qed.

(** *** Adding names *)
Lemma add_all_new r : forall l, NoDup (l ++ r) -> fold_left (fun l n => add_name n l) r l = l ++ r.
Proof.
  induction r as [|n r IH]; intros l N; [symmetry; apply app_nil_r|]. cbn [fold_left]. unfold add_name at 2. assert (E : existsb (String.eqb n) l = false).
  { apply mem_not. intros H. apply NoDup_remove_2 in N. apply N. apply in_or_app. left. exact H. }
  rewrite E, IH; rewrite <- app_assoc; [reflexivity|exact N].
Qed.
Lemma add_all_old r : forall l, incl r l -> fold_left (fun l n => add_name n l) r l = l.
Proof.
  induction r as [|n r IH]; intros l H; [reflexivity|]. cbn [fold_left]. unfold add_name at 2. assert (E : existsb (String.eqb n) l = true) by (apply mem_in; apply H; left; reflexivity). rewrite E. apply IH. intros x Hx. apply H. right. exact Hx.
Qed.

(** *** Several passes over one group [g] *)
Definition view (q : bool) (w : string -> W) (o : string -> option W) : string -> W := fun n => if q then w n else match o n with Some x => x | None => w n end.
Definition inputs (qs : list bool) (b : B) (w : string -> W) (o : string -> option W) (n : string) : list (bool * I) :=
  map (fun q => (q, input q b (first_pos n calls) (view q w o))) qs.
Definition ready (g : list string) (st : state) : Prop :=
  NoDup g /\ g <> [] /\ (exists rest, filter (hooked (hooks st)) calls = g ++ rest) /\ (forall n, In n g -> hook_of n (hooks st) = Some (length g)) /\ count st = 0 /\ (names st = [] \/ names st = g).
Lemma passes_spec g b : forall qs st, ready g st ->
  let st' := fold_left (fun st q => fst (orig_forward calls input output false q b st)) qs st in
  weight st' = weight st /\ weight_orig st' = weight_orig st /\ hooks st' = hooks st /\ count st' = 0 /\ names st' = (match qs with [] => names st | _ => g end)
  /\ forall n, collected st' n = if mem n g then collected st n ++ inputs qs b (weight st) (weight_orig st) n else collected st n.
Proof.
  induction qs as [|q qs IH]; intros st R.
  - destruct R as (_ & _ & _ & _ & C & _). cbn [fold_left]. repeat split; try assumption. intros n. unfold inputs. cbn [map]. rewrite app_nil_r. destruct (mem n g); reflexivity.
  - pose proof R as (N & Ne & (rest & F) & L & C & Nm). cbn [fold_left]. destruct (pass_spec q b calls g st 0 (length g) rest N Ne F L ltac:(lia)) as (c' & P & E).
    assert (EF : fst (orig_forward calls input output false q b st) = fst (pass input false q b 0 calls st)) by (unfold orig_forward; destruct (pass input false q b 0 calls st); reflexivity).
    rewrite EF, P. cbn [fst]. set (st1 := St _ _ _ _ _ _). assert (E1 : names st1 = g).
    { cbn [st1 names]. destruct Nm as [->| ->]; [apply (add_all_new g []); exact N|apply add_all_old; intros x Hx; exact Hx]. }
    assert (R1 : ready g st1) by (repeat split; try assumption; [exists rest; exact F|right; exact E1]). specialize (IH st1 R1). cbv zeta in IH. destruct IH as (I1 & I2 & I3 & I4 & I5 & I6). cbn [st1 weight weight_orig hooks] in I1, I2, I3.
    repeat split; try assumption; [rewrite I5; destruct qs; [exact E1|reflexivity]|]. intros n. rewrite I6. cbn [st1 collected weight weight_orig]. rewrite E. unfold rec1. destruct (mem n g); [|reflexivity]. rewrite <- app_assoc. reflexivity.
Qed.
Lemma catch_state passes ret b (st : state) : fst (catch_stopfwd calls input output passes ret b st) = fold_left (fun st q => fst (orig_forward calls input output false q b st)) passes st.
Proof. unfold catch_stopfwd. destruct ret; [|reflexivity]. unfold orig_forward at 1. rewrite pass_disabled. reflexivity. Qed.
Lemma batches_spec passes ret g : passes <> [] -> forall bs st, ready g st ->
  let st' := fold_left (fun st b => fst (catch_stopfwd calls input output passes ret b st)) bs st in
  weight st' = weight st /\ weight_orig st' = weight_orig st /\ hooks st' = hooks st /\ count st' = 0 /\ names st' = (match bs with [] => names st | _ => g end)
  /\ forall n, collected st' n = if mem n g then collected st n ++ flat_map (fun b => inputs passes b (weight st) (weight_orig st) n) bs else collected st n.
Proof.
  intros Np. induction bs as [|b bs IH]; intros st R.
  - destruct R as (_ & _ & _ & _ & C & _). cbn [fold_left flat_map]. repeat split; try assumption. intros n. rewrite app_nil_r. destruct (mem n g); reflexivity.
  - cbn [fold_left]. rewrite catch_state. pose proof (passes_spec g b passes st R) as P. cbv zeta in P. set (st1 := fold_left _ passes st) in *. clearbody st1. destruct P as (P1 & P2 & P3 & P4 & P5 & P6).
    assert (E1 : names st1 = g) by (rewrite P5; destruct passes; [congruence|reflexivity]). destruct R as (N & Ne & F & L & C & Nm).
    assert (R1 : ready g st1) by (unfold ready; rewrite P3; repeat split; try assumption; right; exact E1). specialize (IH st1 R1). cbv zeta in IH. destruct IH as (I1 & I2 & I3 & I4 & I5 & I6).
    repeat split; try congruence; [rewrite I5; destruct bs; [exact E1|reflexivity]|]. intros n. rewrite I6, P6, P1, P2. destruct (mem n g); [|reflexivity]. cbn [flat_map]. rewrite <- app_assoc. reflexivity.
Qed.
Lemma batches_none passes ret : forall bs (st : state), filter (hooked (hooks st)) calls = [] -> fold_left (fun st b => fst (catch_stopfwd calls input output passes ret b st)) bs st = st.
Proof.
  induction bs as [|b bs IH]; intros st F; [reflexivity|]. cbn [fold_left]. rewrite catch_state. assert (E : fold_left (fun st q => fst (orig_forward calls input output false q b st)) passes st = st).
  { clear IH. induction passes as [|q qs IHq]; [reflexivity|]. cbn [fold_left]. unfold orig_forward at 2. rewrite (pass_none q b calls st 0 F). cbn [fst]. apply IHq. }
  rewrite E. apply IH. exact F.
Qed.

(** *** An update *)
Lemma update_fold l : forall st : state, NoDup l ->
  let st' := fold_left (update_one solve) l st in
  weight_orig st' = weight_orig st /\ count st' = count st /\ collected st' = collected st /\ hooks st' = filter (fun e => negb (mem (fst e) l)) (hooks st)
  /\ forall n, weight st' n = if mem n l then solve n (collected st n) (weight st n) else weight st n.
Proof.
  induction l as [|m l IH]; intros st N.
  - cbn [fold_left]. repeat split. unfold mem. cbn [existsb negb]. induction (hooks st) as [|e h IHh]; [reflexivity|]. cbn [filter]. f_equal. exact IHh.
  - inversion N as [|? ? N1 N2]; subst. cbn [fold_left]. specialize (IH (update_one solve st m) N2). cbv zeta in IH. destruct IH as (I1 & I2 & I3 & I4 & I5). cbn [update_one weight_orig count collected hooks weight] in *. repeat split; try assumption.
    + rewrite I4. clear. induction (hooks st) as [|[k v] h IH]; [reflexivity|]. cbn [filter fst]. unfold mem at 2. cbn [existsb]. destruct (String.eqb k m); cbn [negb orb]; [exact IH|]. cbn [filter fst]. unfold mem at 1. destruct (negb (existsb (String.eqb k) l)); [f_equal; exact IH|exact IH].
    + intros n. rewrite I5. unfold upd. destruct (String.eqb_spec n m) as [->|D].
      * rewrite (proj2 (mem_not m l) N1). unfold mem. cbn [existsb]. rewrite String.eqb_refl. reflexivity.
      * unfold mem. cbn [existsb]. rewrite (proj2 (String.eqb_neq n m) D). reflexivity.
Qed.
End Mode.
