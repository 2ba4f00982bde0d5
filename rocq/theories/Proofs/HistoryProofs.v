(** A history processes its family once (C61). *)
From Coq Require Import Bool String List ZArith NArith Lia Permutation.
From Verif Require Import Model.Num Model.Outcome Model.Rng Model.Xml Model.Std Model.Point
  Model.Surface Model.Types Model.Bins Model.Field Model.Tables Model.Particle
  Model.Multigroup Model.Continuous Model.Material Model.World Model.Perturbation
  Model.Estimator Model.Transport Model.Driver Spec.TransportSpec Spec.HistorySpec
  Proofs.OutcomeLib Proofs.BinsProofs Proofs.CellProofs Proofs.TransportProofs Proofs.FuelProofs.
Import ListNotations.

Section Walks.
  Context {A : Arith} {G : Rng A}.
  Notation particle := (particle A G).
  Implicit Types p q : particle.

  Lemma loop_walk {E} (score : E -> particle -> outcome E) t w f : forall e p e' q,
    transport_loop score t f w e p = Ok (e', q) ->
    exists visited, walk t w p visited q /\ foldM score visited e = Ok e'.
  Proof.
    induction f as [|f IH]; intros e p e' q H; cbn [transport_loop] in H;
      destruct (is_alive p) eqn:Al; try discriminate.
    - injection H as <- <-. exists []. split; [constructor; now apply alive_ended|reflexivity].
    - apply bind_ok in H as (p1 & E1 & H). apply bind_ok in H as (e1 & E2 & H).
      apply IH in H as (l & Wl & F). exists (p1 :: l). split.
      + apply Walk_event with f; auto. now apply alive_not_ended.
      + cbn [foldM]. now rewrite E2.
    - injection H as <- <-. exists []. split; [constructor; now apply alive_ended|reflexivity].
  Qed.

  Lemma walk_loop t w p visited q : walk t w p visited q ->
    exists f0, forall (E : Type) (score : E -> particle -> outcome E) e e' f, (f0 <= f)%nat ->
    foldM score visited e = Ok e' -> transport_loop score t f w e p = Ok (e', q).
  Proof.
    induction 1 as [p En|f1 p p1 l q Al St W IH].
    - exists 0%nat. intros E score e e' f _ [= <-]. apply alive_ended in En.
      destruct f; cbn [transport_loop]; now rewrite En.
    - destruct IH as (f2 & IH). exists (S (f1 + f2)). intros E score e e' f L F.
      destruct f as [|f]; [lia|]. cbn [transport_loop foldM] in *.
      apply alive_not_ended in Al. rewrite Al.
      apply bind_ok in F as (e1 & E1 & F).
      rewrite (upto_ok _ _ _ (step_fuel t f1 f w p ltac:(lia)) St). cbn [bind]. rewrite E1.
      cbn [bind]. apply IH; auto. lia.
  Qed.

  Lemma walk_end_fun t w p l q : walk t w p l q -> forall l' q', walk t w p l' q' -> l = l' /\ q = q'.
  Proof.
    induction 1 as [p En|f1 p p1 l q Al St W IH]; intros l' q' W'; inversion W'; subst; auto;
      try contradiction.
    match goal with
    | S2 : transport_step t ?f2 w p = Ok ?p2, W2 : walk t w ?p2 _ q' |- _ =>
        assert (E : p1 = p2);
        [pose proof (upto_ok _ _ _ (step_fuel t f1 (f1 + f2) w p ltac:(lia)) St) as K1;
         pose proof (upto_ok _ _ _ (step_fuel t f2 (f1 + f2) w p ltac:(lia)) S2) as K2;
         congruence
        |subst p2; destruct (IH _ _ W2) as [-> ->]; auto]
    end.
  Qed.

  Lemma first_cell_fun (w : world A) x c c' : first_cell w x c -> first_cell w x c' -> c = c'.
  Proof.
    intros H H'. apply (proj1 (C13_point_location_proof A w x)) in H, H'. congruence.
  Qed.

  Lemma transport_walked {E} (score : E -> particle -> outcome E) t f w e p e' q :
    transport score t f w e p = Ok (e', q) ->
    exists c visited, first_cell w (p_position p) c /\ walk t w (set_cell p c) visited q
      /\ foldM score visited e = Ok e'.
  Proof.
    intros H. unfold transport in H. apply -> @noexcept_ok in H.
    apply bind_ok in H as (c & Ec & H). apply find_cell_first in Ec.
    apply loop_walk in H as (l & Wl & F). eauto.
  Qed.

  Lemma walked_transport t w p c visited q :
    first_cell w (p_position p) c -> walk t w (set_cell p c) visited q ->
    exists f0, forall (E : Type) (score : E -> particle -> outcome E) e e' f, (f0 <= f)%nat ->
    foldM score visited e = Ok e' -> transport score t f w e p = Ok (e', q).
  Proof.
    intros Fc W. apply walk_loop in W as (f0 & W). exists f0. intros E score e e' f L F.
    unfold transport. apply <- @noexcept_ok. apply (proj1 (C13_point_location_proof A w _)) in Fc.
    rewrite Fc. cbn [bind]. now apply W.
  Qed.
End Walks.

Section Families.
  Context {A : Arith} {G : Rng A}.
  Notation particle := (particle A G).
  Notation family := (@family A G).
  Implicit Types (dr : driver (A := A)) (f : family).

  Fixpoint family_ind' (P : family -> Prop)
      (H : forall p l cs, List.Forall P cs -> P (Family p l cs)) f : P f :=
    match f with
    | Family p l cs =>
        H p l cs ((fix go cs : List.Forall P cs :=
                     match cs with
                     | [] => Forall_nil _
                     | c :: cs => Forall_cons _ (family_ind' P H c) (go cs)
                     end) cs)
    end.

  Lemma complete_inv dr (p : particle) l cs : complete dr (Family p l cs) ->
    exists c q, first_cell (dr_world dr) (p_position p) c
      /\ walk (dr_tracking dr) (dr_world dr) (set_cell (set_perturbations (dr_perts dr) p) c) l q
      /\ p_secondaries q = map founder cs /\ List.Forall (complete dr) cs.
  Proof. inversion 1; subst. eauto 10. Qed.

  Lemma map_app_inv {X Y} (f : X -> Y) (l : list X) : forall a b, map f l = a ++ b ->
    exists la lb, l = la ++ lb /\ map f la = a /\ map f lb = b.
  Proof.
    induction l as [|x l IH]; intros [|y a] b E; cbn in *; try discriminate.
    - exists [], []. auto.
    - exists [], (x :: l). auto.
    - injection E as Ey E. apply IH in E as (la & lb & -> & <- & <-). exists (x :: la), lb.
      cbn. now rewrite Ey.
  Qed.

  Lemma bank_families {E} (score : E -> particle -> outcome E) dr fuel : forall e bank e',
    bank_loop score dr fuel e bank = Ok e' ->
    exists fs order, map founder fs = bank /\ List.Forall (complete dr) fs
      /\ Permutation (flat_map members fs) order /\ foldM score (events order) e = Ok e'.
  Proof.
    induction fuel as [|fuel IH]; intros e bank e' H.
    - cbn [bank_loop] in H. destruct (rev bank) as [|back front] eqn:Er; [|discriminate].
      injection H as <-. apply (f_equal (@rev _)) in Er. rewrite rev_involutive in Er. subst bank.
      exists [], []. repeat split; auto.
    - cbn [bank_loop] in H. destruct (rev bank) as [|back front] eqn:Er.
      { injection H as <-. apply (f_equal (@rev _)) in Er. rewrite rev_involutive in Er. subst bank.
        exists [], []. repeat split; auto. }
      apply (f_equal (@rev _)) in Er. rewrite rev_involutive in Er. cbn [rev] in Er. subst bank.
      apply bind_ok in H as ([e1 q] & E1 & H).
      apply transport_walked in E1 as (c & l & Fc & W & F1).
      apply IH in H as (fs & order & Ef & Fs & Pe & F2).
      apply map_app_inv in Ef as (cs & ffront & -> & Ec & Eff).
      apply Forall_app in Fs as [Fcs Fff].
      exists (ffront ++ [Family back l cs]), ((back, l) :: order). repeat split.
      + rewrite map_app, Eff. reflexivity.
      + apply Forall_app. split; auto. constructor; [|constructor].
        apply Complete with c q; auto.
      + rewrite flat_map_app in Pe |- *. cbn [flat_map members]. rewrite app_nil_r.
        rewrite <- Permutation_middle. constructor. rewrite <- Pe. apply Permutation_app_comm.
      + unfold events. cbn [flat_map snd]. rewrite foldM_app, F1. exact F2.
  Qed.

  Lemma families_bank dr n : forall fs : list family, length (flat_map members fs) = n ->
    List.Forall (complete dr) fs ->
    exists order enough, Permutation (flat_map members fs) order
      /\ forall (E : Type) (score : E -> particle -> outcome E) e e' fuel, (enough <= fuel)%nat ->
         foldM score (events order) e = Ok e' ->
         bank_loop score dr fuel e (map founder fs) = Ok e'.
  Proof.
    induction n as [n IH] using lt_wf_ind. intros fs Hn Fs.
    destruct (rev fs) as [|[back l cs] front] eqn:Er.
    { apply (f_equal (@rev _)) in Er. rewrite rev_involutive in Er. subst fs.
      exists [], 0%nat. split; [constructor|]. intros E score e e' fuel _ [= <-].
      destruct fuel; reflexivity. }
    apply (f_equal (@rev _)) in Er. rewrite rev_involutive in Er. cbn [rev] in Er. subst fs.
    set (ffront := rev front) in *. apply Forall_app in Fs as [Ff Fb]. inversion Fb as [|? ? Cb _]; subst.
    apply complete_inv in Cb as (c & q & Fc & W & Es & Fcs).
    destruct (IH (length (flat_map members (cs ++ ffront)))) with (fs := cs ++ ffront)
      as (order & f1 & Pe & Hl); auto.
    { rewrite !flat_map_app, !app_length. cbn [flat_map members]. rewrite app_nil_r.
      cbn [length]. lia. }
    { apply Forall_app; auto. }
    destruct (walked_transport _ _ (set_perturbations (dr_perts dr) back) c l q Fc W) as (f2 & Ht).
    exists ((back, l) :: order), (S (f1 + f2)). split.
    { rewrite flat_map_app in Pe |- *. cbn [flat_map members]. rewrite app_nil_r.
      rewrite <- Permutation_middle. constructor. rewrite <- Pe. apply Permutation_app_comm. }
    intros E score e e' fuel L F. destruct fuel as [|fuel]; [lia|]. cbn [bank_loop].
    rewrite map_app, rev_app_distr. cbn [map rev app founder].
    unfold events in F. cbn [flat_map snd] in F. rewrite foldM_app in F.
    apply bind_ok in F as (e1 & F1 & F2).
    rewrite (Ht E score e e1 fuel ltac:(lia) F1). cbn [bind].
    rewrite rev_involutive, Es, <- map_app. apply Hl; auto. lia.
  Qed.

  Lemma complete_fun dr : forall f f' : family, complete dr f -> complete dr f' -> founder f = founder f' -> f = f'.
  Proof.
    intros f. induction f as [p l cs IH] using family_ind'. intros [p' l' cs'] C C' Ep.
    cbn in Ep. subst p'. apply complete_inv in C as (c & q & Fc & W & Es & F).
    apply complete_inv in C' as (c' & q' & Fc' & W' & Es' & F').
    rewrite (first_cell_fun _ _ _ _ Fc' Fc) in W'.
    destruct (walk_end_fun _ _ _ _ _ W _ _ W') as [<- <-]. f_equal.
    rewrite Es in Es'. clear - IH F F' Es'. revert cs' F' Es'.
    induction cs as [|f cs IHc]; intros [|f' cs'] F' Es'; try discriminate; auto.
    cbn in Es'. injection Es' as E1 E2. inversion IH; subst. inversion F; subst. inversion F'; subst.
    f_equal; auto.
  Qed.
End Families.

(** The events of a history do not depend on what scores them. *)
Section Record.
  Context {A : Arith} {G : Rng A}.
  Notation particle := (particle A G).

  Definition keep (l : list particle) (p : particle) : outcome (list particle) := Ok (l ++ [p]).

  Lemma loop_keep {E} (score : E -> particle -> outcome E) t w f : forall e p e' q,
    transport_loop score t f w e p = Ok (e', q) ->
    exists l, foldM score l e = Ok e'
      /\ forall acc, transport_loop keep t f w acc p = Ok (acc ++ l, q).
  Proof.
    induction f as [|f IH]; intros e p e' q H; cbn [transport_loop] in *;
      destruct (is_alive p) eqn:Al; try discriminate.
    - injection H as <- <-. exists []. split; auto. intros; now rewrite app_nil_r.
    - apply bind_ok in H as (p1 & E1 & H). apply bind_ok in H as (e1 & E2 & H).
      apply IH in H as (l & F & K). exists (p1 :: l). split.
      + cbn [foldM]. now rewrite E2.
      + intros acc. rewrite E1. cbn [bind keep]. rewrite K. now rewrite <- app_assoc.
    - injection H as <- <-. exists []. split; auto. intros; now rewrite app_nil_r.
  Qed.

  Lemma bank_keep {E} (score : E -> particle -> outcome E) dr f : forall e bank e',
    bank_loop score dr f e bank = Ok e' ->
    exists l, foldM score l e = Ok e'
      /\ forall acc, bank_loop keep dr f acc bank = Ok (acc ++ l).
  Proof.
    induction f as [|f IH]; intros e bank e' H; cbn [bank_loop] in *;
      destruct (rev bank) as [|back front]; try discriminate.
    - injection H as <-. exists []. split; auto. intros; now rewrite app_nil_r.
    - injection H as <-. exists []. split; auto. intros; now rewrite app_nil_r.
    - apply bind_ok in H as ([e1 q] & E1 & H). apply IH in H as (l & F & K).
      unfold transport in *. apply -> @noexcept_ok in E1. apply bind_ok in E1 as (c & Ec & E1).
      apply loop_keep in E1 as (l1 & F1 & K1). exists (l1 ++ l). split.
      + now rewrite foldM_app, F1.
      + intros acc. cbn [p_position] in *. rewrite Ec. cbn [bind]. rewrite K1. cbn [noexcept bind].
        rewrite K. now rewrite app_assoc.
  Qed.

  (** The events of history [i], in order. *)
  Definition shown (dr : driver (A := A)) (i : N) (evs : list particle) : Prop :=
    exists f, bank_loop keep dr f [] [history_start dr i] = Ok evs.

  Lemma shown_fun dr i evs evs' : shown dr i evs -> shown dr i evs' -> evs = evs'.
  Proof.
    intros [f H] [f' H'].
    pose proof (upto_ok _ _ _ (bank_loop_fuel keep dr f (f + f') [] _ ltac:(lia)) H) as K.
    pose proof (upto_ok _ _ _ (bank_loop_fuel keep dr f' (f + f') [] _ ltac:(lia)) H') as K'.
    congruence.
  Qed.

  Lemma foldM_keep (l : list particle) : forall acc, foldM keep l acc = Ok (acc ++ l).
  Proof.
    induction l as [|p l IH]; intros acc; cbn; [now rewrite app_nil_r|].
    rewrite IH. now rewrite <- app_assoc.
  Qed.

  Lemma shown_history dr i evs : shown dr i evs -> history dr i evs.
  Proof.
    intros [f H]. apply bank_families in H as (fs & order & Ef & Fs & Pe & F).
    destruct fs as [|fam [|? ?]]; try discriminate. injection Ef as Ef.
    cbn [flat_map] in Pe. rewrite app_nil_r in Pe. inversion Fs; subst.
    exists fam, order. repeat split; auto. rewrite foldM_keep in F. now injection F as <-.
  Qed.
End Record.

Lemma C61_members_once_proof :
  forall (A : Arith) (G : Rng A) (E : Type) (score : E -> particle A G -> outcome E)
    (dr : @driver A) fuel e (p : particle A G) e',
  bank_loop score dr fuel e [p] = Ok e' ->
  exists f order, complete dr f /\ founder f = p
    (* the walks followed are those of the members, each once *)
    /\ Permutation (members f) order
    /\ foldM score (events order) e = Ok e'.
Proof.
  intros A G E score dr fuel e p e' H. apply bank_families in H as (fs & order & Ef & Fs & Pe & F).
  destruct fs as [|f [|? ?]]; try discriminate. injection Ef as Ef.
  exists f, order. inversion Fs; subst. cbn [flat_map] in Pe. rewrite app_nil_r in Pe. auto.
Qed.

Lemma C61_all_members_proof :
  forall (A : Arith) (G : Rng A) (dr : @driver A) (f : @family A G),
  complete dr f ->
  exists order enough, Permutation (members f) order
    /\ forall (E : Type) (score : E -> particle A G -> outcome E) e e' fuel,
       (enough <= fuel)%nat -> foldM score (events order) e = Ok e' ->
       bank_loop score dr fuel e [founder f] = Ok e'.
Proof.
  intros A G dr f C. destruct (families_bank dr _ [f] eq_refl) as (order & f0 & Pe & H); auto.
  exists order, f0. cbn [flat_map] in Pe. rewrite app_nil_r in Pe. auto.
Qed.

Lemma C61_one_family_proof :
  forall (A : Arith) (G : Rng A) (dr : @driver A) (f f' : @family A G),
  complete dr f -> complete dr f' -> founder f = founder f' -> f = f'.
Proof. intros A G dr f f'. apply complete_fun. Qed.
