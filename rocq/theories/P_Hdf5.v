(** C47-C49: the HDF5 output. *)
From Verif Require Import Base PyStr M_Hdf5 S_Hdf5 L_Hdf5 L_Keep.
Open Scope list_scope.

(** C47: storing then loading. *)
Theorem C47_saved_dictionaries_are_read_back :
  forall (V : Type) (unit_ok : string -> bool) (d : list (string * item V)),
    storable unit_ok (IDict d) ->
    exists g l, save_dict [] d = (g, Ok tt) /\ load unit_ok g = Ok l /\ Restores d l.
Proof. intros; apply roundtrip; auto. Qed.
Print Assumptions C47_saved_dictionaries_are_read_back.

(** The same through store_dictionary in a group of a file holding anything else. *)
Theorem C47_saved_group_is_read_back :
  forall (V : Type) (unit_ok : string -> bool) (f : list (string * h5 V)) n d,
    storable unit_ok (IDict d) -> sget n f = None ->
    exists f' g l, store_dictionary f d (Some n) = (f', Ok tt) /\
      at_ [n] (G f') = Some (G g) /\ load unit_ok g = Ok l /\ Restores d l.
Proof.
  intros V u f n d S N. destruct (roundtrip u d S) as (g & l & E & L & B).
  exists (f ++ [(n, G g)]), g, l. split; [|split; [|split; auto]].
  - cbn. rewrite N, E. reflexivity.
  - cbn. rewrite sget_app, N. cbn. rewrite String.eqb_refl. reflexivity.
Qed.
Print Assumptions C47_saved_group_is_read_back.

(** A quantity whose own key is "value" loses its unit: the full claim ("quantities come back
    with their unit") is refuted. *)
Theorem C47_every_quantity_keeps_its_unit_refuted :
  forall (V : Type) (unit_ok : string -> bool) (v : V) u,
    exists g, save_dict [] [("value", IQuant v u)] = (g, Ok tt) /\
              load unit_ok g = Ok [("value", LV v)].
Proof. intros. eexists; split; reflexivity. Qed.
Print Assumptions C47_every_quantity_keeps_its_unit_refuted.

(** A table whose name has a dot is stored but its group can no longer be loaded. *)
Theorem C47_dotted_table_names_break_loading :
  forall (V : Type) (unit_ok : string -> bool) (t : table V),
    exists g, save_dict [] [("a.b", ITab t)] = (g, Ok tt) /\ load unit_ok g = Err KeyError.
Proof. intros. eexists; split; [reflexivity|]. vm_compute. reflexivity. Qed.
Print Assumptions C47_dotted_table_names_break_loading.

(** Tables, wherever they are in the dictionary, come back with their rows and header, and
    their columns are readable one by one. *)
Theorem C47_tables_are_read_back :
  forall (V : Type) (unit_ok : string -> bool) (d : list (string * item V)) k (t : table V),
    storable unit_ok (IDict d) -> In (k, ITab t) d ->
    exists g l, save_dict [] d = (g, Ok tt) /\ load unit_ok g = Ok l /\
      sget k l = Some (LTab (tb_array t) (tb_header t)) /\
      exists cols, sget (k ++ "_to_group")%string l = Some (LDict cols) /\
        forall c v u, In (c, (v, u)) (tb_cols t) ->
          exists col, sget c cols = Some (LDict col) /\
            match u with
            | Some n => sget "value" col = Some (LQuant v n) /\ sget "unit" col = Some (LBytes n)
            | None => sget "value" col = Some (LV v) /\ sget "unit" col = None
            end.
Proof.
  intros V unit_ok d k t S I. destruct (roundtrip unit_ok d S) as (g & l & E & L & B).
  exists g, l. split; auto. split; auto. inversion B as [? ? KS IS TS]; subst.
  split.
  - destruct (IS _ _ I) as (lv & G & X). inversion X; subst; auto.
  - destruct (TS _ _ I) as (cols & G & X). exists cols. split; auto. intros c v u IC.
    inversion X as [? ? KC IT _]; subst.
    destruct (IT c (IDict (("value", IArr v) :: match u with Some n => [("unit", IStr n)] | None => [] end)))
      as (lv & GC & XC).
    { unfold columns. apply in_map_iff. exists (c, (v, u)). auto. }
    inversion XC as [| | | | | | | | | | | |? ? ? col XD|]; subst. exists col. split; auto.
    inversion XD as [? ? KD ID _]; subst.
    destruct (ID "value" (IArr v)) as (w & GW & XW); [left; auto|].
    destruct u as [n|].
    + destruct (ID "unit" (IStr n)) as (w' & GW' & XW'); [right; left; auto|].
      inversion XW'; subst. split; auto. inversion XW as [|? ? ? O| | |? ? n' IU| | | | | | | | | ]; subst.
      * exfalso. destruct O as [O|O]; [auto|apply O; cbn; auto].
      * destruct IU as [IU|[IU|[]]]; [discriminate|]. injection IU as <-. auto.
    + split.
      * inversion XW as [| | | |? ? n' IU| | | | | | | | | ]; subst; auto.
        destruct IU as [IU|[]]; discriminate.
      * apply dget_None_notIn; [apply String_eqb_spec|]. rewrite KD. cbn. intuition discriminate.
Qed.
Print Assumptions C47_tables_are_read_back.

Definition ex_t : table nat := {| tb_array := 1; tb_header := 2; tb_cols := [("QE", (5, None)); ("Wavelength", (6, Some "um"))] |}.
Definition ex_d : list (string * item nat) :=
  [("wl", IQuant 7 "um"); ("name", IStr "Vis"); ("table", ITab ex_t);
   ("sub", IDict [("value", INum 3); ("unit", IStr "K")])].
Definition ex_unit (s : string) : bool := String.eqb s "um" || String.eqb s "K".
(** A list which numpy cannot turn into an array (dictionaries, tables, quantities of several units)
    is stored item by item: exactly as a dictionary with its items under the numbered names. *)
Theorem C47_unlike_items_are_numbered :
  forall (V : Type) (g : list (string * h5 V)) key l g',
    store_thing g key (IList (Err TypeError) l) = (g', Ok tt) <-> save_dict g (numbered key 0 l) = (g', Ok tt).
Proof.
  intros V g key l g'. rewrite store_list_eq. generalize 0. revert g. induction l as [|i l IH]; intros g n; [reflexivity|].
  cbn [store_list numbered save_dict]. unfold name_idx. destruct (store_thing g _ i) as [g1 [[]|e]]; [apply IH|].
  split; [discriminate|]. destruct e; discriminate.
Qed.
Print Assumptions C47_unlike_items_are_numbered.

(** ... and therefore read back, when the names are not those of other entries. *)
Theorem C47_unlike_items_are_read_back :
  forall (V : Type) (unit_ok : string -> bool) key (l : list (item V)),
    storable unit_ok (IDict (numbered key 0 l)) ->
    exists g r, save_dict [] [(key, IList (Err TypeError) l)] = (g, Ok tt) /\ load unit_ok g = Ok r /\ Restores (numbered key 0 l) r.
Proof.
  intros V u key l S. destruct (roundtrip u _ S) as (g & r & E & L & B). exists g, r. split; [|auto].
  apply (proj2 (C47_unlike_items_are_numbered V [] key l g)) in E. cbn [save_dict]. now rewrite E.
Qed.
Print Assumptions C47_unlike_items_are_read_back.
Example C47_ex_numbered : exists g, save_dict (V := nat) [] [("filter", IList (Err TypeError) [IDict [("T", IQuant 3 "K")]; IDict [("T", IStr "cold")]])] = (g, Ok tt)
  /\ at_ ["filter0"; "T"; "value"] (G g) = Some (D (DV 3)) /\ at_ ["filter1"; "T"] (G g) = Some (D (DS "cold")).
Proof. eexists. split; [reflexivity|]. split; reflexivity. Qed.

Example C47_ex :
  storable ex_unit (IDict ex_d) /\
  load ex_unit (fst (save_dict [] ex_d)) =
    Ok [("name", LBytes "Vis");
        ("sub", LDict [("unit", LBytes "K"); ("value", LQuant 3 "K")]);
        ("table", LTab 1 2); ("table.__table_column_meta__", LV 2);
        ("table_to_group", LDict [("QE", LDict [("value", LV 5)]);
                                  ("Wavelength", LDict [("unit", LBytes "um"); ("value", LQuant 6 "um")])]);
        ("wl", LDict [("unit", LBytes "um"); ("value", LQuant 7 "um")])].
Proof.
  split; [|reflexivity]. cbn.
  assert (ND : NoDup ["wl"; "name"; "table"; "table.__table_column_meta__"; "table_to_group"; "sub"]).
  { repeat constructor; cbn; intuition discriminate. }
  split; [exact ND|]. split; [|split; [|split; [reflexivity|split; [exact I|split; [|split; [|exact I]]]]]].
  - intros k i [E|[E|[E|[E|[]]]]]; injection E as <- <-; reflexivity.
  - intros a b [E|[E|[E|[E|[]]]]]; discriminate.
  - split; [repeat constructor; cbn; intuition discriminate|]. split.
    + intros c v u [E|[E|[]]]; injection E as <- <- <-; split; reflexivity.
    + intros [[E|[E|[]]] _]; discriminate.
  - split; [repeat constructor; cbn; intuition discriminate|]. split; [|split; [|auto]].
    + intros k i [E|[E|[]]]; injection E as <- <-; reflexivity.
    + intros a b [E|[E|[]]] [E'|[E'|[]]]; try discriminate. injection E as <-. injection E' as <-.
      split; [reflexivity|]. exists "K". split; reflexivity.
Qed.

(** C48: no operation on the file loses or changes existing data, even when it fails. *)
Theorem C48_existing_data_is_kept :
  forall (V : Type) (f f' : list (string * h5 V)) d n r,
    store_dictionary f d n = (f', r) -> keeps (G f) (G f').
Proof. intros; eapply store_dictionary_keeps; eauto. Qed.
Print Assumptions C48_existing_data_is_kept.

(** When storing succeeds every requested dataset was free before and is there after: no two
    values ever compete for a place. *)
Theorem C48_success_means_no_clash :
  forall (V : Type) (f f' : list (string * h5 V)) d p x,
    store_dictionary f d None = (f', Ok tt) -> wants d p x ->
    at_ p (G f) = None /\ at_ p (G f') = Some (D x).
Proof. intros; eapply save_dict_wants; eauto. Qed.
Print Assumptions C48_success_means_no_clash.

Theorem C48_success_means_no_clash_in_group :
  forall (V : Type) (f f' : list (string * h5 V)) d n p x,
    store_dictionary f d (Some n) = (f', Ok tt) -> wants d p x ->
    at_ (n :: p) (G f) = None /\ at_ (n :: p) (G f') = Some (D x).
Proof.
  intros V f f' d n p x E W. rewrite store_dictionary_eq in E.
  destruct (into_group_ok _ _ _ _ E (wants_nonempty _ _ _ W)) as (s0 & s1 & S & E1 & E0).
  destruct (save_dict_wants _ _ _ W _ _ S) as [H1 H2]. cbn. rewrite E1. split; auto.
  destruct E0 as [-> | [-> _]]; auto.
Qed.
Print Assumptions C48_success_means_no_clash_in_group.

(** So a clash raises. *)
Theorem C48_clash_raises :
  forall (V : Type) (f f' : list (string * h5 V)) d n p x y r,
    wants d p x -> at_ (n :: p) (G f) = Some y ->
    store_dictionary f d (Some n) = (f', r) -> (exists e, r = Err e) /\ keeps (G f) (G f').
Proof.
  intros V f f' d n p x y r W A E. split.
  - destruct r as [[]|e]; eauto. exfalso.
    destruct (C48_success_means_no_clash_in_group _ _ _ _ _ _ _ E W) as [N _]. congruence.
  - eapply store_dictionary_keeps; eauto.
Qed.
Print Assumptions C48_clash_raises.

(** Existing groups are merged: what is new in the dictionary arrives next to what was there. *)
Example C48_ex :
  store_dictionary [("t", G [("a", D (DV 1))])] [("b", INum 2)] (Some "t")
    = ([("t", G [("a", D (DV 1)); ("b", D (DV 2))])], Ok tt) /\
  store_dictionary [("t", G [("a", D (DV 1))])] [("b", INum 2); ("a", INum 3); ("c", INum 4)] (Some "t")
    = ([("t", G [("a", D (DV 1)); ("b", D (DV 2))])], Err ValueError).
Proof. split; reflexivity. Qed.

(** C49: opening. *)
Theorem C49_append_keeps_everything :
  forall (V : Type) (f f' : list (string * h5 V)) s r,
    s_append s = true -> run_session (Some f) s = (f', r) -> keeps (G f) (G f').
Proof. intros; eapply run_session_keeps; eauto. Qed.
Print Assumptions C49_append_keeps_everything.

Theorem C49_no_append_discards_everything :
  forall (V : Type) (prev : option (list (string * h5 V))) s,
    s_append s = false -> run_session prev s = run_session None s.
Proof. intros V prev s A. unfold run_session, open_file. rewrite A. destruct prev; reflexivity. Qed.
Print Assumptions C49_no_append_discards_everything.

(** A new file starts with the info group holding exactly the given attributes. *)
Theorem C49_new_file_has_info :
  forall (V : Type) info, NoDup (map fst info) ->
    open_file (V := V) None true info =
      ([("info", G [("ExoRad", G (map (fun kv => (fst kv, D (DS (snd kv)))) info))])], Ok tt).
Proof.
  intros V info ND. unfold open_file. cbn [negb orb]. cbn.
  assert (H : forall g : list (string * h5 V), (forall k, In k (map fst info) -> sget k g = None) ->
     save_dict g (map (fun kv => (fst kv, IStr (snd kv))) info)
     = (g ++ map (fun kv => (fst kv, D (DS (snd kv)))) info, Ok tt)).
  { induction info as [|[k s] info IH]; intros g N; cbn.
    - rewrite app_nil_r; auto.
    - inversion ND; subst. unfold create_dataset. rewrite N by (cbn; auto). rewrite IH; auto.
      + rewrite <- app_assoc; auto.
      + intros k' I. rewrite sget_app, N by (cbn; auto). cbn.
        destruct (String.eqb k' k) eqn:E; auto. apply String.eqb_eq in E; subst; contradiction. }
  rewrite H; auto.
Qed.
Print Assumptions C49_new_file_has_info.

(** After any history of sessions the file has its info, and the info of the last truncating
    session is never rewritten by later appending ones. *)
Theorem C49_info_is_written_once :
  forall (V : Type) (prev : option (list (string * h5 V))) s h f k v,
    Forall (fun s => s_append s = true) h ->
    at_ ["info"; "ExoRad"; k] (G (fst (run_session prev s))) = Some (D v) ->
    run_history prev (s :: h) = Some f -> at_ ["info"; "ExoRad"; k] (G f) = Some (D v).
Proof.
  intros V prev s h f k v F. cbn [run_history]. generalize (fst (run_session prev s)).
  induction F as [|s' h A F IH]; cbn [run_history]; intros f0 H E.
  - injection E as <-; auto.
  - eapply IH; [|exact E]. destruct (run_session (Some f0) s') as [f1 r] eqn:R. cbn [fst].
    apply run_session_keeps in R; auto. apply R; auto.
Qed.
Print Assumptions C49_info_is_written_once.

Theorem C49_every_opened_file_has_info :
  forall (V : Type) (prev : option (list (string * h5 V))) s,
    exists x, at_ ["info"] (G (fst (run_session prev s))) = Some x.
Proof.
  intros V prev s.
  assert (H : exists x, at_ ["info"] (G (fst (open_file prev (s_append s) (s_info s)))) = Some x).
  { unfold open_file. set (b := match prev with Some f => if s_append s then f else [] | None => [] end).
    unfold dmem. destruct (negb (s_append s) || negb (match sget "info" b with Some _ => true | None => false end)) eqn:C.
    - destruct (sget "info" b) as [[x|sub0]|] eqn:E.
      + cbn. rewrite E; eauto.
      + destruct (store_dictionary _ _ _) as [sub r]. cbn [fst at_].
        rewrite dget_dset_same by apply String_eqb_spec. eauto.
      + destruct (store_dictionary _ _ _) as [sub r]. cbn [fst at_]. rewrite sget_app, E. cbn. eauto.
    - cbn [fst at_]. destruct (sget "info" b); [eauto|]. cbn in C. rewrite orb_true_r in C. discriminate. }
  unfold run_session. destruct (open_file prev (s_append s) (s_info s)) as [f [u|e]]; cbn [fst] in *; auto.
  destruct (write_all f (s_writes s)) as [f' r] eqn:W. apply write_all_keeps in W. cbn [fst].
  destruct H as [x H]. eapply at_keeps; eauto.
Qed.
Print Assumptions C49_every_opened_file_has_info.

Example C49_ex :
  run_history (V := nat) None
    [ {| s_append := true; s_info := [("file_time", "monday")]; s_writes := [("t1", [("a", INum 1)])] |};
      {| s_append := true; s_info := [("file_time", "tuesday")]; s_writes := [("t2", [("a", INum 2)])] |} ]
  = Some [("info", G [("ExoRad", G [("file_time", D (DS "monday"))])]);
          ("t1", G [("a", D (DV 1))]); ("t2", G [("a", D (DV 2))])].
Proof. reflexivity. Qed.
