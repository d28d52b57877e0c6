(** C89: the 3MF package that Create3MF writes. *)
From Coq Require Import String Ascii List Arith Bool Lia DecimalString DecimalNat.
From Verif Require Import Prelude RenderIOModel ThreeMFModel CreateModel PropsThreeMF PropsRenderIO.
Import ListNotations.
Local Open Scope string_scope.

(** The package as a 3MF consumer reads it: it looks up parts by name in a completed archive, follows the relationship
    of the 3D model type to the model part, and reads each part as one header and one body. *)
Definition part_named {V} (a : archive V) (n : string) : option (list (piece V)) :=
  match filter (fun p => String.eqb (fst p) n) (ar_parts a) with [p] => Some (snd p) | _ => None end.
Definition extension_type {V} (a : archive V) (ext : string) : option string :=
  match part_named a "[Content_Types].xml" with
  | Some [PTypes l] => option_map snd (find (fun p => String.eqb (fst p) ext) l)
  | _ => None
  end.
Definition read_model {V} (a : archive V) : option (document V) :=
  if ar_closed a then
    match part_named a "_rels/.rels" with
    | Some [PHeader; PRels l] =>
        match find (fun r => String.eqb (snd (fst r)) "http://schemas.microsoft.com/3dmanufacturing/2013/01/3dmodel") l with
        | Some (target, _, _) => match part_named a target with Some [PHeader; PModel d] => Some d | _ => None end
        | None => None
        end
    | _ => None
    end
  else None.
(** The triangles the printer is told to build. *)
Definition built {V} (d : document V) : list (list (option V * option V * option V)) :=
  flat_map (fun i => map (fun o => expand (xo_verts o) (xo_tris o)) (filter (fun o => Nat.eqb (xo_id o) i) (d_objects d))) (d_build d).

Lemma run_steps_spec {V} fails (l : list (step V)) : forall i a,
  match run_steps fails i a l with
  | Some a' => (forall k, i <= k < i + length l -> fails k = false) /\ a' = fold_left apply_step l a
  | None => exists k, i <= k < i + length l /\ fails k = true
  end.
Proof.
  induction l as [|s l IH]; intros i a; cbn [run_steps fold_left length].
  - split; [intros; lia|reflexivity].
  - destruct (fails i) eqn:E; [exists i; split; [lia|assumption]|].
    specialize (IH (S i) (apply_step a s)). destruct (run_steps fails (S i) (apply_step a s) l).
    + destruct IH as [H1 H2]. split; [|assumption]. intros k Hk. destruct (Nat.eq_dec k i); [subst; assumption|apply H1; lia].
    + destruct IH as (k & Hk & F). exists k. split; [lia|assumption].
Qed.

(** When Create3MF returns nil and the file's Close succeeds, the file is a completed package whose model part, found
    through the relationships part, is in millimetres, and tells to build exactly the rendered triangles; the content
    types cover the extensions of all its parts. *)
Theorem C89_package_partial {V} (veq : V -> V -> bool) (Heq : forall a b, veq a b = true <-> a = b) rs fails disk :
  create_3mf veq rs fails true = Some (disk, false) ->
  exists ts a d,
    render_all [] rs = Some (ts, false) /\ disk = File a /\ read_model a = Some d /\
    d_unit d = "millimeter" /\ d_schema d = "http://schemas.microsoft.com/3dmanufacturing/core/2015/02" /\
    d_lang d = "en-US" /\ d_meta d = [("author", "anonymous"); ("generator", "Generated by github.com/soypat/sdf. Please report bugs."); ("Title", "SDF")] /\
    built d = [map (fun t => let '(p, q, r) := t in (Some p, Some q, Some r)) ts] /\
    NoDup (map fst (ar_parts a)) /\
    extension_type a "model" = Some "application/vnd.ms-package.3dmanufacturing-3dmodel+xml" /\
    extension_type a "rels" = Some "application/vnd.openxmlformats-package.relationships+xml" /\
    (forall n, In n (map fst (ar_parts a)) -> n = "[Content_Types].xml" \/ exists b ext, n = b ++ "." ++ ext /\ extension_type a ext <> None).
Proof.
  unfold create_3mf. destruct (render_all [] rs) as [[ts [|]]|] eqn:ER; try discriminate.
  intros H. injection H as H. unfold create_file in H. destruct (fails 0); [discriminate|].
  set (d := document_of _ _) in H.
  pose proof (run_steps_spec fails (create_steps d) 1 (Archive [] false)) as RS.
  destruct (run_steps fails 1 (Archive [] false) (create_steps d)) as [a|]; [|discriminate].
  injection H as <-. destruct RS as [_ ->].
  set (a := fold_left _ _ _). exists ts, a, d.
  split; [reflexivity|]. split; [reflexivity|]. split; [reflexivity|]. split; [reflexivity|]. split; [reflexivity|]. split; [reflexivity|]. split; [reflexivity|].
  split.
  - unfold d. destruct (add_object veq "SDFMesh" ts new_3mf) as [m' err] eqn:EA. cbn [fst].
    destruct (C24_expand veq Heq _ _ _ _ _ EA) as (o & Ho & Hx & _).
    unfold add_object in EA. destruct (add_triangles veq ts ([], [])) as [dst [verts vm]].
    injection EA as <- _. cbn in Ho. injection Ho as <-. cbn [o_vertices o_triangles] in Hx.
    match goal with |- built ?d = _ => change (built d) with [expand verts dst] end. rewrite Hx. reflexivity.
  - split; [|split; [reflexivity|split; [reflexivity|]]].
    + cbn. repeat constructor; cbn; intuition discriminate.
    + intros n Hn. cbn in Hn. destruct Hn as [<-|[<-|[<-|[]]]].
      * right. exists "3D/3dmodel", "model". split; [reflexivity|discriminate].
      * right. exists "_rels/", "rels". split; [reflexivity|discriminate].
      * left. reflexivity.
Qed.

(** Errors: Create3MF returns nil exactly if rendering ends without error and none of the ten calls fails; it does
    not touch the file system if rendering fails. *)
Theorem C89_errors {V} (veq : V -> V -> bool) rs fails close_ok :
  match render_all [] rs with
  | None => create_3mf veq rs fails close_ok = None
  | Some (_, true) => create_3mf veq rs fails close_ok = Some (Untouched, true)
  | Some (_, false) => exists disk err, create_3mf veq rs fails close_ok = Some (disk, err) /\
      (err = false <-> forall k, k < 10 -> fails k = false)
  end.
Proof.
  unfold create_3mf. destruct (render_all [] rs) as [[ts [|]]|]; try reflexivity.
  set (d := document_of _ _). clearbody d. unfold create_file. destruct (fails 0) eqn:E0.
  - exists Unknown, true. split; [reflexivity|]. split; [discriminate|]. intros H. rewrite (H 0) in E0 by lia. discriminate.
  - pose proof (run_steps_spec fails (create_steps d) 1 (Archive [] false)) as RS.
    destruct (run_steps fails 1 (Archive [] false) (create_steps d)) as [a|].
    + eexists _, false. split; [reflexivity|]. split; [|reflexivity]. intros _ k Hk. destruct RS as [RS _].
      destruct k; [assumption|]. apply RS. cbn. lia.
    + exists Unknown, true. split; [reflexivity|]. split; [discriminate|]. destruct RS as (k & Hk & F).
      intros H. cbn in Hk. rewrite (H k) in F by lia. discriminate.
Qed.

(** The warning about vertices shared by fewer than three triangles does not change what is written or returned: the
    file still holds all the triangles (C89_package_partial has no hypothesis on it). *)
Example C89_warned : exists d disk,
  snd (add_object Nat.eqb "SDFMesh" [(1, 2, 3); (1, 3, 4)] new_3mf) = true /\
  create_3mf Nat.eqb [([(1, 2, 3)], ENil); ([(1, 3, 4)], ENil); ([], EEOF)] (fun _ => false) true = Some (File disk, false) /\
  read_model disk = Some d /\
  built d = [[(Some 1, Some 2, Some 3); (Some 1, Some 3, Some 4)]] /\
  map xo_part (d_objects d) = ["SDFMesh-1"].
Proof. eexists _, _. repeat split. Qed.

(** Triangles delivered together with io.EOF, as the octree renderer may do (C09), are missing from the file. *)
Theorem C89_last_lost_refuted : exists d disk,
  create_3mf Nat.eqb [([(1, 2, 3)], ENil); ([(1, 3, 4)], EEOF)] (fun _ => false) true = Some (File disk, false) /\
  read_model disk = Some d /\ built d = [[(Some 1, Some 2, Some 3)]].
Proof. eexists _, _. repeat split. Qed.

(** The result of the deferred fp.Close is dropped: nil is returned although the data did not reach the disk. *)
Theorem C89_close_refuted :
  exists disk, create_3mf Nat.eqb [([(1, 2, 3)], ENil); ([], EEOF)] (fun _ => false) false = Some (disk, false) /\
    forall a, disk <> File a.
Proof. exists Unknown. split; [reflexivity|discriminate]. Qed.
(** Every object refers to property group 0 (pid="0"), which no document has: resource ids start at 1, and the objects
    are the only resources. *)
Theorem C89_pid_refuted {V} (veq : V -> V -> bool) meta calls : calls <> [] ->
  let d := document_of meta (add_all veq calls (@new_3mf V)) in
  exists o, In o (d_objects d) /\ xo_pid o = 0 /\ forall o', In o' (d_objects d) -> xo_id o' <> xo_pid o.
Proof.
  intros NE d. destruct (C26_ids veq calls) as (Hid & _).
  assert (PID : forall o, In o (d_objects d) -> xo_pid o = 0).
  { intros o Ho. unfold d, document_of in Ho. cbn [d_objects] in Ho. apply in_map_iff in Ho. destruct Ho as (x & <- & _). reflexivity. }
  assert (ID : forall o, In o (d_objects d) -> 1 <= xo_id o).
  { intros o Ho. unfold d, document_of in Ho. cbn [d_objects] in Ho. apply in_map_iff in Ho. destruct Ho as (x & <- & Hx).
    cbn [xobj xo_id]. apply (in_map o_id) in Hx. rewrite Hid in Hx. apply in_seq in Hx. lia. }
  destruct (d_objects d) as [|o l] eqn:E.
  - exfalso. apply NE. destruct calls; [reflexivity|]. apply (f_equal (@length _)) in E, Hid.
    unfold d, document_of in E. cbn [d_objects] in E. rewrite map_length in E. rewrite map_length in Hid. rewrite seq_length in Hid. cbn [length] in E, Hid. rewrite E in Hid. discriminate.
  - exists o. split; [left; reflexivity|]. split; [apply PID; left; reflexivity|]. intros o' Ho'. rewrite (PID o (or_introl eq_refl)). specialize (ID o' Ho'). lia.
Qed.

(** Part numbers: name-id; whatever the names, they are all different. *)
Fixpoint all_digits (s : string) : Prop :=
  match s with EmptyString => True | String c s => c <> "-"%char /\ all_digits s end.
Lemma itoa_digits n : all_digits (itoa n).
Proof.
  unfold itoa, NilZero.string_of_uint.
  assert (G : forall u, all_digits (NilEmpty.string_of_uint u)) by (induction u; cbn; repeat split; try assumption; discriminate).
  destruct (Nat.to_uint n); try apply G. cbn. repeat split; discriminate.
Qed.
Lemma itoa_inj n m : itoa n = itoa m -> n = m.
Proof.
  intros H. unfold itoa in H. apply (f_equal NilZero.uint_of_string) in H.
  assert (NN : forall k, Nat.to_uint k <> Decimal.Nil).
  { intros k Hk. pose proof (Unsigned.of_to k) as Ho. rewrite Hk in Ho. cbn in Ho. subst k. discriminate Hk. }
  rewrite !NilZero.usu in H by apply NN.
  injection H as H. apply Unsigned.to_uint_inj. assumption.
Qed.
Lemma digits_no_dash s t : all_digits (s ++ "-" ++ t) -> False.
Proof. induction s as [|c s IH]; cbn; [intros [H _]; apply H; reflexivity|intros [_ H]; exact (IH H)]. Qed.
Lemma last_dash a b : forall n m, all_digits n -> all_digits m -> a ++ "-" ++ n = b ++ "-" ++ m -> n = m.
Proof.
  revert b. induction a as [|c a IH]; intros b n m Hn Hm E; destruct b as [|c' b]; cbn in E.
  - injection E. auto.
  - injection E as <- E. subst n. exfalso. exact (digits_no_dash b m Hn).
  - injection E as -> E. subst m. exfalso. exact (digits_no_dash a n Hm).
  - injection E as _ E. exact (IH b n m Hn Hm E).
Qed.
Theorem C89_part_numbers {V} (veq : V -> V -> bool) meta calls :
  let d := document_of meta (add_all veq calls (@new_3mf V)) in
  NoDup (map xo_part (d_objects d)) /\ map xo_name (d_objects d) = map fst calls /\ length (d_objects d) = length calls /\
  firstn (length meta) (d_meta d) = meta /\ length (d_meta d) = length meta + 2.
Proof.
  intros d. destruct (C26_ids veq calls) as (Hid & _ & Hn & _). unfold d, document_of. cbn [d_objects]. rewrite !map_map. split; [|split].
  - assert (ND : NoDup (map o_id (m_objects (add_all veq calls (@new_3mf V))))) by (rewrite Hid; apply seq_NoDup).
    clear Hid Hn d. induction (m_objects (add_all veq calls new_3mf)) as [|o l IH]; [constructor|].
    cbn [map] in *. inversion ND as [|? ? H1 H2]; subst. constructor; [|apply IH; assumption].
    intros Hin. apply in_map_iff in Hin. destruct Hin as (o' & E & Ho'). apply H1.
    cbn [xobj xo_part] in E. apply last_dash in E; [|apply itoa_digits|apply itoa_digits]. apply itoa_inj in E. rewrite <- E. apply in_map. assumption.
  - exact Hn.
  - split; [rewrite map_length; rewrite <- (map_length o_id), Hid, seq_length; reflexivity|]. cbn [d_meta]. rewrite firstn_app, Nat.sub_diag, firstn_all, app_nil_r, app_length. split; reflexivity.
Qed.
Example C89_part_numbers_example :
  map xo_part (d_objects (document_of [] (add_all Nat.eqb [("a", [(1, 2, 3)]); ("a-1", []); ("a", [])] new_3mf))) = ["a-1"; "a-1-2"; "a-3"].
Proof. reflexivity. Qed.
