(** Lemmas about foregrounds. *)
From Verif Require Import Base Dict XR M_Signal M_Optics M_Light M_Bins M_Source M_Foreground S_Signal S_Optics S_Light S_Bins S_Source S_Foreground L_Signal L_Optics L_Light L_Bins P_Windows L_Source.
From Coq Require Import Permutation Sorted Psatz.
Open Scope list_scope.
Open Scope R_scope.

(** ** Interpolation *)
Lemma insert_perm {V} (p : R * V) l : Permutation (insert p l) (p :: l).
Proof.
  induction l as [|q l IH]; cbn; auto. destruct (Rltb _ _) || destruct (Rltb _ _); auto; rewrite ?IH; auto using perm_swap.
  all: try (rewrite perm_swap; constructor; auto).
Qed.
Lemma sort_perm {V} (l : list (R * V)) : Permutation (sort_src l) l.
Proof. induction l as [|p l IH]; cbn; auto. rewrite insert_perm. now constructor. Qed.
Lemma nodup_increasing l : NoDup l -> nondecreasing l -> increasing l.
Proof.
  induction l as [|x l IH]; intros Hn Hs; [constructor|]. inversion Hn; subst. apply StronglySorted_inv in Hs as [Hs Hf].
  constructor; [now apply IH|]. rewrite Forall_forall in *. intros y Hy. specialize (Hf y Hy). assert (x <> y) by (intros ->; auto). lra.
Qed.
Lemma interp_or_curve fill tab w : increasing (wls tab) -> tab <> [] -> curve_or fill tab w (interp_or fill tab w).
Proof.
  intros Hi Hne. assert (Hs : nondecreasing (wls tab)) by now apply increasing_nondecreasing.
  pose proof (locate_spec w tab Hs) as Hl. unfold interp_or. destruct (locate w tab) as [[a [b|]]|].
  - destruct Hl as [Hn Hw]. left. left. exists a, b. split; auto. split; auto. field. lra.
  - destruct Hl as (H1 & H2 & H3). destruct (Rltb (fst a) w) eqn:E.
    + apply Rltb_true in E. right. split; auto. right. intros p Hp. specialize (H3 p Hp). lra.
    + apply Rltb_false in E. left. right. exists a. repeat split; auto. lra.
  - right. split; auto.
Qed.
Lemma sorted_rows (x y : list R) : length x = length y -> NoDup x -> exists tab : list (R * R), tab = sort_src (combine x y) /\ Permutation (combine x y) tab /\ increasing (wls tab).
Proof.
  intros Hl Hn. exists (sort_src (combine x y)). split; auto. split; [symmetry; apply sort_perm|].
  apply nodup_increasing; [|apply sort_sorted]. apply Permutation_NoDup with (map fst (combine x y)); [apply Permutation_map; symmetry; apply sort_perm|].
  change (NoDup (wls (combine x y))). replace (wls (combine x y)) with x; auto. symmetry. exact (proj1 (combine_xs _ _ Hl)).
Qed.
Lemma interp1d_or_inv fill x y wl r : interp1d_or fill x y wl = Ok r -> x <> [] /\ length x = length y /\ r = map (interp_or fill (sort_src (combine x y))) wl.
Proof.
  unfold interp1d_or. destruct x as [|x0 x]; [discriminate|]. destruct (Nat.eqb_spec (length (x0 :: x)) (length y)) as [Hl|]; [|discriminate]. intros H. repeat split; [discriminate|auto|congruence].
Qed.
Lemma grid_spec n a b wl : working_grid n a b = Ok wl -> geometric_grid (microns a) (microns b) n wl.
Proof.
  unfold working_grid, microns, um_of. destruct (in_um a), (in_um b); try discriminate. intros H. assert (wl = logspace (value a * r) (value b * r0) n) as -> by congruence.
  unfold logspace. split; [now rewrite map_length, seq_length|]. intros i Hi. now rewrite at_map_seq.
Qed.
Lemma grid_length n a b wl : working_grid n a b = Ok wl -> length wl = n.
Proof. intros H. apply grid_spec in H. apply H. Qed.

(** ** Sky filters *)
Lemma filter_length n a b wl d f : working_grid n a b = Ok wl -> sky_filter wl d = Ok f ->
  exists tr, f_transmission f = Some tr /\ length tr = n /\ s_wl (f_light f) = wl /\ length (s_data (f_light f)) = n.
Proof.
  intros Hw E. apply grid_length in Hw. unfold sky_filter in E. dbind E t Ht. dbind E w Hwc. dbind E x Hx. dbind E r Hr. dbind E y Hy. dbind E y' Hy'. dbind E tc Htc. dbind E tr Htr.
  assert (f = {| f_light := {| s_wl := wl; s_data := y' |}; f_transmission := Some tr |}) as -> by congruence. cbn [f_light f_transmission s_wl s_data].
  apply interp1d_or_inv in Hy as (_ & _ & ->). apply interp1d_or_inv in Htr as (_ & _ & ->). exists (map (interp_or 1 (sort_src (combine x (c_values tc)))) wl). repeat split; [now rewrite map_length|].
  destruct (c_unit r); [|discriminate]. assert (y' = map (fun v => v * r0) (map (interp_or 0 (sort_src (combine x (c_values r)))) wl)) as -> by congruence. now rewrite !map_length.
Qed.
Lemma filter_values wl d f : sky_filter wl d = Ok f -> distinct_wavelengths d ->
  exists tr, f_transmission f = Some tr /\ Forall2 (transmission_at d) wl tr /\ Forall2 (radiance_at d) wl (s_data (f_light f)).
Proof.
  intros E Hd. unfold sky_filter in E. dbind E t Ht. dbind E w Hwc. dbind E x Hx. dbind E r Hr. dbind E y Hy. dbind E y' Hy'. dbind E tc Htc. dbind E tr Htr.
  assert (f = {| f_light := {| s_wl := wl; s_data := y' |}; f_transmission := Some tr |}) as -> by congruence. cbn [f_light f_transmission s_wl s_data]. exists tr. split; auto.
  unfold lookup in *. destruct (k_data d) as [t0|] eqn:Ed; [|discriminate]. assert (t0 = t) as -> by congruence. clear Ht.
  destruct (sget "Wavelength" t) as [w0|] eqn:Ew; [|discriminate]. assert (w0 = w) as -> by congruence.
  destruct (sget "Radiance" t) as [r0|] eqn:Er; [|discriminate]. assert (r0 = r) as -> by congruence.
  destruct (sget "Transmission" t) as [tc0|] eqn:Et; [|discriminate]. assert (tc0 = tc) as -> by congruence.
  unfold to_um in Hx. destruct (c_unit w) as [u|] eqn:Eu; [|discriminate]. assert (x = map (fun v => v * u) (c_values w)) as -> by congruence.
  specialize (Hd _ _ _ Ed Ew Eu). apply interp1d_or_inv in Hy as (Hne & Hl & ->). apply interp1d_or_inv in Htr as (_ & Hl' & ->).
  assert (Htab : forall fill name c, sget name t = Some c -> length (map (fun v => v * u) (c_values w)) = length (c_values c) ->
    forall l, Forall2 (column_says fill name d) l (map (interp_or fill (sort_src (combine (map (fun v => v * u) (c_values w)) (c_values c)))) l)).
  { intros fill name c Hc Hlen. destruct (sorted_rows _ _ Hlen Hd) as (tab & -> & Hp & Hi). induction l as [|a l IH]; cbn [map]; constructor; auto.
    eexists t, _, _. split; auto. split; [exists w, u, c; rewrite map_length in Hlen; repeat split; auto|]. split; [exact Hp|]. split; auto. apply interp_or_curve; auto. intros E0.
    rewrite E0 in Hp. apply Permutation_sym, Permutation_nil in Hp. destruct (map (fun v => v * u) (c_values w)); [now apply Hne|]. destruct (c_values c); discriminate. }
  split; [now apply Htab|]. destruct (c_unit r) as [ur|] eqn:Eur; [|discriminate]. rewrite map_map in Hy'.
  assert (y' = map (fun z => interp_or 0 (sort_src (combine (map (fun v => v * u) (c_values w)) (c_values r))) z * ur) wl) as -> by congruence.
  pose proof (Htab 0 "Radiance"%string r Er Hl) as HR. induction wl as [|a wl IH]; cbn [map]; constructor; [|now apply IH].
  specialize (HR [a]). inversion HR; subst. exists t, r, ur. eexists. repeat split; eauto.
Qed.

(** ** One foreground, apart from the target *)
Definition contribution (m : maps) (n : nat) (a b : wavelength) (ra dec : option coordinate) (p : string * any_descr) : res (string * foreground) :=
  if String.eqb (fst p) "zodiacal" then
    let* wl := working_grid n a b in
    let* coords := match ra with Some ra => match dec with Some dec => Ok (Some (ra, dec)) | None => Err KeyError end | None => Ok None end in
    let* A := zodi_factor m (as_zodi (snd p)) coords in
    Ok ("zodi"%string, {| f_light := zodi_model wl A; f_transmission := None |})
  else
    let* wl := working_grid n a b in
    let* name := lookup (k_value (as_sky (snd p))) in
    let* f := sky_filter wl (as_sky (snd p)) in
    let* tr := lookup (f_transmission f) in
    Ok (name, f).
Definition dim (f : foreground) (sky : option sig) : res (option sig) :=
  match f_transmission f with
  | None => Ok sky
  | Some tr => match sky with
               | None => Ok (Some {| s_wl := s_wl (f_light f); s_data := tr |})
               | Some s => let* x := times (s_data s) tr in Ok (Some {| s_wl := s_wl s; s_data := x |})
               end
  end.
Definition absorb (c : string * foreground) (t : tgt) : res tgt :=
  let* sky := dim (snd c) (g_sky t) in
  Ok {| g_ra := g_ra t; g_dec := g_dec t; g_foreground := entry (fst c) (snd c) t; g_sky := sky |}.
Lemma estimate_one_split m n a b k d t : estimate_one m n a b k d t =
  let* c := contribution m n a b (g_ra t) (g_dec t) (k, d) in absorb c t.
Proof.
  unfold estimate_one, contribution. cbn [fst snd]. destruct (String.eqb k "zodiacal").
  - unfold estimate_zodi. destruct (working_grid n a b) as [wl|]; cbn [bind]; auto. destruct (g_ra t) as [ra|] eqn:Era; [destruct (g_dec t) as [dec|] eqn:Edec|]; cbn [bind]; auto.
    + destruct (zodi_factor m (as_zodi d) (Some (ra, dec))); cbn [bind]; auto. unfold absorb, dim. cbn. now rewrite Era, Edec.
    + destruct (zodi_factor m (as_zodi d) None); cbn [bind]; auto. unfold absorb, dim. cbn. now rewrite Era.
  - unfold estimate_foreground. destruct (working_grid n a b) as [wl|] eqn:Ew; cbn [bind]; auto. destruct (lookup (k_value (as_sky d))) as [name|]; cbn [bind]; auto.
    destruct (sky_filter wl (as_sky d)) as [f|] eqn:Ef; cbn [bind]; auto. destruct (filter_length n a b wl _ _ Ew Ef) as (tr & Htr & _ & Hwl & _). rewrite Htr. cbn [lookup bind].
    unfold absorb, dim. cbn [fst snd]. rewrite Htr. destruct (g_sky t) as [s|]; cbn [bind]; [|now rewrite Hwl]. destruct (times (s_data s) tr); cbn [bind]; auto.
Qed.
Lemma absorb_coords c t t' : absorb c t = Ok t' -> g_ra t' = g_ra t /\ g_dec t' = g_dec t.
Proof. unfold absorb. intros E. dbind E s Hs. assert (t' = {| g_ra := g_ra t; g_dec := g_dec t; g_foreground := entry (fst c) (snd c) t; g_sky := s |}) as -> by congruence. auto. Qed.
Fixpoint absorb_all (cs : list (string * foreground)) (t : tgt) : res tgt :=
  match cs with [] => Ok t | c :: cs => let* t := absorb c t in absorb_all cs t end.
Lemma estimate_all_iff m n a b : forall l t t', estimate_all m n a b l t = Ok t' <->
  exists cs, Forall2 (fun p c => contribution m n a b (g_ra t) (g_dec t) p = Ok c) l cs /\ absorb_all cs t = Ok t'.
Proof.
  induction l as [|[k d] l IH]; intros t t'; cbn [estimate_all].
  - split; [intros H; exists []; auto|]. intros (cs & H & E). inversion H; subst. auto.
  - rewrite estimate_one_split. split.
    + intros E. dbind E t1 H1. dbind H1 c Hc. apply IH in E as (cs & HF & E). destruct (absorb_coords _ _ _ H1) as [Ea Ed]. rewrite Ea, Ed in HF.
      exists (c :: cs). split; [now constructor|]. cbn [absorb_all]. now rewrite H1.
    + intros (cs & HF & E). inversion HF as [|? c ? cs' Hc HF']; subst. cbn [absorb_all] in E. dbind E t1 H1. rewrite Hc. cbn [bind]. rewrite H1. cbn [bind]. apply IH. exists cs'. split; auto.
      destruct (absorb_coords _ _ _ H1) as [Ea Ed]. now rewrite Ea, Ed.
Qed.
Lemma absorb_all_coords cs : forall t t', absorb_all cs t = Ok t' -> g_ra t' = g_ra t /\ g_dec t' = g_dec t.
Proof.
  induction cs as [|c cs IH]; intros t t' E; cbn [absorb_all] in E; [assert (t' = t) as -> by congruence; auto|]. dbind E t1 H1. apply absorb_coords in H1 as [A B]. apply IH in E as [C D]. split; congruence.
Qed.

(** ** The sky transmission *)
Definition transmissions (cs : list (string * foreground)) : list (list R) := concat (map (fun c => match f_transmission (snd c) with Some tr => [tr] | None => [] end) cs).
Fixpoint dim_all (cs : list (string * foreground)) (sky : option sig) : res (option sig) :=
  match cs with [] => Ok sky | c :: cs => let* sky := dim (snd c) sky in dim_all cs sky end.
Lemma absorb_all_sky cs : forall t t', absorb_all cs t = Ok t' -> dim_all cs (g_sky t) = Ok (g_sky t').
Proof.
  induction cs as [|c cs IH]; intros t t' E; cbn [absorb_all dim_all] in *; [congruence|]. dbind E t1 H1. unfold absorb in H1. dbind H1 s Hs. cbn [bind].
  apply IH in E. assert (g_sky t1 = s) as <- by (assert (t1 = {| g_ra := g_ra t; g_dec := g_dec t; g_foreground := entry (fst c) (snd c) t; g_sky := s |}) as -> by congruence; auto). auto.
Qed.
Lemma absorb_all_ok cs : forall t s, dim_all cs (g_sky t) = Ok s -> exists t', absorb_all cs t = Ok t'.
Proof.
  induction cs as [|c cs IH]; intros t s E; cbn [absorb_all dim_all] in *; eauto. dbind E s1 H1. unfold absorb. rewrite ?H1. cbn [bind]. eapply IH. cbn [g_sky]. exact E.
Qed.
Lemma absorb_all_error cs : forall t e, dim_all cs (g_sky t) = Err e <-> absorb_all cs t = Err e.
Proof.
  induction cs as [|c cs IH]; intros t e; cbn [absorb_all dim_all]; [split; discriminate|]. unfold absorb. destruct (dim (snd c) (g_sky t)) as [s|]; cbn [bind]; [|split; congruence]. rewrite <- IH. cbn [g_sky]. reflexivity.
Qed.
(** the wavelengths [wl] are those of all filters *)
Definition on_grid (wl : list R) (c : string * foreground) : Prop :=
  forall tr, f_transmission (snd c) = Some tr -> length tr = length wl /\ s_wl (f_light (snd c)) = wl.
Lemma dim_all_some wl cs : Forall (on_grid wl) cs -> forall s,
  (length (s_data s) = length wl \/ transmissions cs = []) ->
  exists s', dim_all cs (Some s) = Ok (Some s') /\ s_wl s' = s_wl s /\ length (s_data s') = length (s_data s)
  /\ forall i, at_ i (s_data s') = at_ i (s_data s) * product (map (at_ i) (transmissions cs)).
Proof.
  induction 1 as [|c cs Hc HF IH]; intros s Hs; cbn [dim_all]; [exists s; repeat split; auto; intros; cbn; lra|].
  unfold transmissions in *. cbn [map concat] in *. unfold dim. destruct (f_transmission (snd c)) as [tr|] eqn:Et; cbn [bind app] in *; [|now apply IH].
  destruct Hs as [Hs|Hs]; [|discriminate]. destruct (Hc tr Et) as [Hl _]. rewrite times_same by congruence. cbn [bind].
  destruct (IH {| s_wl := s_wl s; s_data := mul (s_data s) tr |}) as (s' & E & Ew & El & Ev); [left; cbn [s_data]; rewrite mul_length; congruence|]. cbn [s_wl s_data] in *.
  exists s'. rewrite E. rewrite mul_length in El by congruence. repeat split; auto. intros i. rewrite Ev, mul_at by congruence. cbn [map product fold_right]. unfold product. ring.
Qed.
Lemma dim_all_mismatch wl cs : Forall (on_grid wl) cs -> forall s, length (s_data s) <> length wl -> transmissions cs <> [] -> dim_all cs (Some s) = Err ValueError.
Proof.
  induction 1 as [|c cs Hc HF IH]; intros s Hs Ht; [now destruct Ht|]. cbn [dim_all]. unfold dim. unfold transmissions in *. cbn [map concat] in Ht.
  destruct (f_transmission (snd c)) as [tr|] eqn:Et; cbn [bind]; [|now apply IH]. destruct (Hc tr Et) as [Hl _]. unfold times. destruct (Nat.eqb_spec (length (s_data s)) (length tr)); [congruence|]. reflexivity.
Qed.
Lemma dim_all_none wl cs : Forall (on_grid wl) cs ->
  (transmissions cs = [] /\ dim_all cs None = Ok None) \/
  (transmissions cs <> [] /\ exists s', dim_all cs None = Ok (Some s') /\ s_wl s' = wl /\ length (s_data s') = length wl
  /\ forall i, at_ i (s_data s') = product (map (at_ i) (transmissions cs))).
Proof.
  induction 1 as [|c cs Hc HF IH]; cbn [dim_all]; [now left|]. unfold transmissions in *. cbn [map concat]. unfold dim. destruct (f_transmission (snd c)) as [tr|] eqn:Et; cbn [bind app]; [|exact IH].
  right. split; [discriminate|]. destruct (Hc tr Et) as [Hl Hw]. destruct (dim_all_some wl cs HF {| s_wl := s_wl (f_light (snd c)); s_data := tr |}) as (s' & E & Ew & El & Ev); [now left|].
  exists s'. rewrite E. cbn [s_wl s_data] in *. split; auto. split; [congruence|]. split; [congruence|]. intros i. rewrite Ev. reflexivity.
Qed.
Lemma contribution_grid m n a b ra dec p c : contribution m n a b ra dec p = Ok c -> exists wl, working_grid n a b = Ok wl /\ on_grid wl c /\ s_wl (f_light (snd c)) = wl
  /\ (if zodiacal p then fst c = "zodi"%string /\ f_transmission (snd c) = None else k_value (as_sky (snd p)) = Some (fst c) /\ sky_filter wl (as_sky (snd p)) = Ok (snd c)).
Proof.
  unfold contribution, zodiacal. destruct (String.eqb (fst p) "zodiacal").
  - intros E. dbind E wl Hw. dbind E co Hco. dbind E A HA. exists wl. assert (c = ("zodi"%string, {| f_light := zodi_model wl A; f_transmission := None |})) as -> by congruence. cbn. repeat split; auto; discriminate.
  - intros E. dbind E wl Hw. dbind E nm Hnm. dbind E ff Hf. dbind E tr Htr. exists wl. assert (c = (nm, ff)) as -> by congruence. cbn [fst snd]. split; auto.
    destruct (filter_length _ _ _ _ _ _ Hw Hf) as (tr' & E' & Hl & Hwl & _). split; [|split; auto; split; auto; unfold lookup in Hnm; destruct (k_value (as_sky (snd p))); congruence].
    intros tr0 E0. rewrite (grid_length _ _ _ _ Hw). cbn [snd] in E0 |- *. split; congruence.
Qed.
Lemma contributions_grid m n a b ra dec l cs wl : working_grid n a b = Ok wl -> Forall2 (fun p c => contribution m n a b ra dec p = Ok c) l cs -> Forall (on_grid wl) cs.
Proof. intros Hw. induction 1 as [|p c l cs H HF IH]; constructor; auto. apply contribution_grid in H as (wl' & Hw' & Hg & _). assert (wl' = wl) as -> by congruence. exact Hg. Qed.
Lemma transmissions_perm cs cs' : Permutation cs cs' -> Permutation (transmissions cs) (transmissions cs').
Proof. intros H. unfold transmissions. induction H; cbn; auto; [now apply Permutation_app_head|rewrite !app_assoc; apply Permutation_app_tail, Permutation_app_comm|etransitivity; eauto]. Qed.
Lemma product_perm l l' : Permutation l l' -> product l = product l'.
Proof. unfold product. induction 1; cbn; try lra; congruence. Qed.
Lemma product_app l l' : product (l ++ l') = product l * product l'.
Proof. unfold product. induction l as [|x l IH]; cbn; [lra|]. rewrite IH. ring. Qed.
(** ** The dictionary *)
Fixpoint entries (cs : list (string * foreground)) (d : option (sdict foreground)) : option (sdict foreground) :=
  match cs with [] => d | c :: cs => entries cs (Some (sset (fst c) (snd c) (match d with Some d => d | None => [] end))) end.
Lemma absorb_all_entries cs : forall t t', absorb_all cs t = Ok t' -> g_foreground t' = entries cs (g_foreground t).
Proof.
  induction cs as [|c cs IH]; intros t t' E; cbn [absorb_all entries] in *; [congruence|]. dbind E t1 H1. unfold absorb in H1. dbind H1 s Hs. apply IH in E. rewrite E. f_equal.
  assert (t1 = {| g_ra := g_ra t; g_dec := g_dec t; g_foreground := entry (fst c) (snd c) t; g_sky := s |}) as -> by congruence. reflexivity.
Qed.
