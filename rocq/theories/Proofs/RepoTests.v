(** The repository's own unit tests, replayed on the model in double precision: the
    files test/test_*.cpp of /repo, on the documents of test/. These are tests of the
    model, not of the theorems: they show that it computes what the code's authors
    expect of the code. Left out: the cases that need the contents of data files
    (test_ThermalScattering.cpp, the continuous totals of test_Nuclide.cpp, the values
    of test_HDF5.cpp) and the text of a validator's message. *)
From Coq Require Import Bool String Ascii List ZArith NArith SpecFloat.
From Verif Require Import Model.Num Model.Outcome Model.Rng Model.Xml Model.Std Model.Point
  Model.Surface Model.Types Model.Bins Model.Field Model.Tables Model.Particle Model.Multigroup
  Model.Continuous Model.Material Model.World Model.Perturbation Model.Estimator Model.Transport
  Model.Driver Model.Schema Model.Program Spec.TextExt Proofs.SampleDouble Proofs.RepoDocuments.
Import ListNotations.
Local Open Scope string_scope.
Local Open Scope bool_scope.

(** Elementary functions to about ten digits, quicker to evaluate than those of the
    other examples: series with the reciprocals computed once. *)
Section Series.
  Notation add := (SFadd prec64 emax64).
  Notation mul := (SFmul prec64 emax64).
  Notation div := (SFdiv prec64 emax64).
  Notation sub := (SFsub prec64 emax64).
  Definition odd_reciprocals : list spec_float :=
    map (fun k => div (f64_ofZ 1) (f64_ofZ (2 * Z.of_nat k + 1))) (seq 0 12).
  Definition atanh_sum (t : spec_float) : spec_float :=
    let t2 := mul t t in
    snd (fold_left (fun st r => (mul (fst st) t2, add (snd st) (mul (fst st) r)))
           odd_reciprocals (t, f64_ofZ 0)).
  Definition log_mantissa (m : spec_float) : spec_float :=
    mul (f64_ofZ 2) (atanh_sum (div (sub m (f64_ofZ 1)) (add m (f64_ofZ 1)))).
  Definition log_two : spec_float := log_mantissa (f64_ofZ 2).
  Definition quick_log (x : spec_float) : spec_float :=
    match x with
    | S754_finite false m e =>
        add (mul (f64_ofZ (e + 52)) log_two) (log_mantissa (S754_finite false m (-52)))
    | _ => sample_log x
    end.
  (** -1 / (k (k + 1)) for k = first, first + 2, ... *)
  Definition factors (first : Z) : list spec_float :=
    map (fun i => let k := (first + 2 * Z.of_nat i)%Z in
                  SFopp (div (f64_ofZ 1) (f64_ofZ (k * (k + 1))))) (seq 0 16).
  Definition cos_factors : list spec_float := factors 1.
  Definition sin_factors : list spec_float := factors 2.
  Definition taylor_sum (fs : list spec_float) (x2 first : spec_float) : spec_float :=
    snd (fold_left (fun st f => let t := mul (mul (fst st) x2) f in (t, add (snd st) t))
           fs (first, first)).
  Definition quick_cos (x : spec_float) : spec_float := taylor_sum cos_factors (mul x x) (f64_ofZ 1).
  Definition quick_sin (x : spec_float) : spec_float := taylor_sum sin_factors (mul x x) x.
End Series.
Definition quick_libm : Libm :=
  mkLibm quick_cos quick_sin quick_log (fun x => x) (fun x => x) (fun x _ => x).
Local Notation D64 := (F64 quick_libm).

(** ** Reading numbers with a sign and an exponent *)
Fixpoint before_e (s : string) : string * option string :=
  match s with
  | EmptyString => ("", None)
  | String c t =>
      if Ascii.eqb c "e" || Ascii.eqb c "E" then ("", Some t)
      else let (a, b) := before_e t in (String c a, b)
  end.
Definition unsign (s : string) : string :=
  match s with String c t => if Ascii.eqb c "+" then t else s | _ => s end.
Definition parse_sci (s : string) : option (Z * Z) :=
  let (a, b) := before_e s in
  match parse_dec (unsign a), b with
  | Some (m, e), None => Some (m, e)
  | Some (m, e), Some x =>
      match parse_dec (unsign x) with Some (k, 0%Z) => Some (m, e + k)%Z | _ => None end
  | None, _ => None
  end.
Definition sci_real (s : string) : num D64 :=
  match parse_sci s with Some (m, e) => ndec D64 m e | None => nofZ D64 0 end.
Definition repo_ext : Ext D64 :=
  let T := text_ext D64 [] in
  {| to_double := sci_real; to_ullong := to_ullong T; to_uint := to_uint T;
     to_reals := fun s => map sci_real (words s); to_words := to_words T;
     stoi := stoi T; stoul := stoul T; stoull := stoull T;
     stod := fun s => match parse_sci s with
                      | Some (m, e) => Ok (ndec D64 m e) | None => Throw "stod" end;
     show_real := show_real T; h5_file := fun _ => None;
     surface_address := surface_address T; nuclide_address := nuclide_address T |}.
Definition on_parsed (f : Z -> Z -> bool) (s : string) : bool :=
  match parse_sci s with Some (m, e) => f m e | None => false end.
Definition repo_lexical : Lexical :=
  mkLexical (on_parsed (fun _ _ => true)) (on_parsed (fun m _ => (0 <=? m)%Z))
    (on_parsed (fun m _ => (0 <? m)%Z)) (on_parsed (fun m e => ((0 <? m) && (e =? 0))%Z)) words.

(** ** Checks *)
Notation eq64 := (neqb D64).
Definition d (m e : Z) : num D64 := ndec D64 m e.
Definition P (x y z : Z) : point D64 := mkPoint (A := D64) (d x 0) (d y 0) (d z 0).
Definition Dir (x y z : Z) : point D64 := dir_xyz (A := D64) (d x 0) (d y 0) (d z 0).
Definition is_inf (x : num D64) : bool := match x with S754_infinity false => true | _ => false end.
(** Catch::Matchers::WithinRel(target, eps) *)
Definition within_rel (x target eps : num D64) : bool :=
  let size := nmul D64 eps (if nltb D64 (nabs D64 x) (nabs D64 target)
                            then nabs D64 target else nabs D64 x) in
  nleb D64 target (nadd D64 x size) && nleb D64 x (nadd D64 target size).
Definition close (x : num D64) (m e : Z) : bool :=
  within_rel x (d m e) (nmul D64 (d 100 0) (neps D64)).
Definition throws {V} (o : outcome V) (message : string) : bool :=
  match o with Throw m => String.eqb m message | _ => false end.
Definition ok {V} (o : outcome V) (f : V -> bool) : bool :=
  match o with Ok v => f v | _ => false end.
Definition gives (o : outcome (num D64)) (m e : Z) : bool := ok o (fun x => eq64 x (d m e)).
Definition root (e : xml) : node := Some (mkH e [Elem "" [] [e] ""]).
Definition the_world (e : xml) : outcome (world D64) := world_create repo_ext (root e).
Ltac checked := vm_cast_no_check (eq_refl true).

(** ** test_Point.cpp *)
Example binary_operators :
  let p := P 1 1 0 in let q := P 1 0 0 in
  peqb (padd p q) (P 2 1 0) && peqb (psub p q) (P 0 1 0) && peqb (pscale p (d 2 0)) (P 2 2 0)
  && negb (peqb p q) = true.
Proof. checked. Qed.
Example member_functions :
  let p := P 1 1 0 in let q := P 1 0 0 in
  let r := ndiv D64 (d 1 0) (nsqrt D64 (d 2 0)) in
  peqb (pnormalize p) (mkPoint (A := D64) r r (d 0 0)) && eq64 (pdot p q) (d 1 0)
  && peqb (pcross p q) (P 0 0 (-1)) = true.
Proof. checked. Qed.
Example member_operators :
  let p := P 1 2 3 in
  peqb (padd p (P 4 5 6)) (P 5 7 9)
  && peqb (pdiv p (d 2 0)) (mkPoint (A := D64) (d 5 (-1)) (d 1 0) (d 15 (-1))) = true.
Proof. checked. Qed.
Example direction_from_components :
  let over7 n := ndiv D64 (d n 0) (d 7 0) in
  peqb (Dir 2 3 6) (mkPoint (A := D64) (over7 2%Z) (over7 3%Z) (over7 6%Z)) = true.
Proof. checked. Qed.
Example direction_mu_phi : peqb (dir_rotate (Dir 0 1 0) (d 0 0) (d 0 0)) (Dir 0 0 (-1)) = true.
Proof. checked. Qed.

(** ** test_CSGSurface.cpp *)
Example nonexistent_surface :
  throws (surface_create repo_ext (root doc_multigroup) "nonexistent")
    "Surface node ""nonexistent"" not found. Must be one of: [""inner shell"", ""middle shell"", ""outer shell"", ]"
  = true.
Proof. checked. Qed.
Example distances_to_sphere :
  ok (surface_create repo_ext (root doc_multigroup) "inner shell") (fun s =>
    let from x y z := distance (s_shape s) (P x y z) (Dir 0 0 1) in
    let at_z z := from 0%Z 0%Z z in
    is_inf (from 2%Z 0%Z 0%Z) && is_inf (from 1%Z 0%Z 0%Z) && close (at_z (-2)%Z) 1 0
    && close (at_z (-1)%Z) 2 0 && close (at_z 0%Z) 1 0 && is_inf (at_z 1%Z)
    && is_inf (at_z 2%Z)) = true.
Proof. checked. Qed.

(** ** test_Cell.cpp *)
Example nearest :
  ok (the_world doc_multigroup) (fun w =>
    match nth_error (w_cells w) 1 with
    | Some c => ok (nearest_surface c (mkPoint (A := D64) (d 15 (-1)) (d 0 0) (d 0 0)) (Dir 1 0 0))
                  (fun sd => String.eqb (su_name (fst sd)) "middle shell" && close (snd sd) 5 (-1))
    | None => false
    end) = true.
Proof. checked. Qed.

(** ** test_Material.cpp *)
Example nonexistent_material :
  throws (material_node (root doc_multigroup) "nonexistent")
    "Material node ""nonexistent"" not found. Must be one of: [""water"", ""hydrogen"", ""oxygen"", ]"
  = true.
Proof. checked. Qed.

(** ** test_Nuclide.cpp *)
Example nonexistent_nuclide :
  throws (the_world doc_multigroup_nonexistent_nuclide)
    "Nuclide node ""nonexistent"" not found. Must be one of: [""nuclide A"", ""nuclide B"", ]" = true.
Proof. checked. Qed.
Example malformed :
  throws (the_world doc_multigroup_malformed_capture)
    "/minimc/nuclides/multigroup/nuclide/neutron/capture: Expected 2 entries but got 3"
  && throws (the_world doc_multigroup_malformed_scatter)
    "/minimc/nuclides/multigroup/nuclide/neutron/scatter: Expected 4 entries but got 5"
  && throws (the_world doc_multigroup_missing_particle_data)
    "/minimc/nuclides/multigroup/nuclide: ""neutron"" node not found"
  && throws (the_world doc_continuous_invalid_nuclide_data_path) "File not found: /not/real" = true.
Proof. checked. Qed.
Definition neutron_in (g : N) : particle D64 (Minstd D64) :=
  new_particle (G := Minstd D64) (P 0 0 0) (Dir 1 0 0) (Group g) neutron 1 None.
Definition total_of (name : string) (g : N) : outcome (num D64) :=
  bind (the_world doc_multigroup) (fun w =>
  bind (find_cell w (P 0 0 0)) (fun c =>
  bind (nuclide_create repo_ext 0 (n_find_by_attr
          (n_child (n_child (root doc_multigroup) "nuclides") "multigroup") "name" name)) (fun nu =>
  nu_total nu (set_cell (neutron_in g) c)))).
Example totals :
  gives (total_of "hydrogen" 1) 1 0 && gives (total_of "hydrogen" 2) 1 0
  && gives (total_of "oxygen" 1) 15 (-1) && gives (total_of "oxygen" 2) 1 0
  && gives (total_of "uranium235" 1) 133 (-2) && gives (total_of "uranium235" 2) 267 (-2) = true.
Proof. checked. Qed.

(** ** test_Particle.cpp *)
Example constructed :
  let p := new_particle (G := Minstd D64) (P 0 0 0) (Dir 1 0 0) (Group 42) photon 1 None in
  peqb (p_position p) (P 0 0 0) && match p_energy p with Group g => (g =? 42)%N | _ => false end
  && match p_type p with photon => true | _ => false end = true.
Proof. checked. Qed.
Example streamed :
  ok (stream SurfaceTracking (neutron_in 1) (d 10 0)) (fun p => peqb (p_position p) (P 10 0 0)) = true.
Proof. checked. Qed.
Example cell_assigned :
  throws (get_cell (neutron_in 1)) "Particle does not belong to a Cell"
  && ok (the_world doc_multigroup) (fun w =>
       match w_cells w with
       | c :: _ => ok (get_cell (set_cell (neutron_in 1) c)) (fun c' => Nat.eqb (c_id c) (c_id c'))
       | [] => false
       end) = true.
Proof. checked. Qed.

(** ** test_World.cpp *)
Definition material_of (c : cell D64) : string :=
  match c_material c with Some m => m_name m | None => "" end.
Definition surface_in (c : cell D64) (name : string) : option nat :=
  match find (fun s => String.eqb (su_name (fst s)) name) (c_senses c) with
  | Some s => Some (su_id (fst s)) | None => None end.
Example a_world :
  ok (the_world doc_multigroup) (fun w =>
    match w_cells w with
    | [pit; inner_shell; outer_shell; _] =>
        let at_x m e name := ok (find_cell w (mkPoint (A := D64) (d m e) (d 0 0) (d 0 0)))
                               (fun c => String.eqb (c_name c) name) in
        String.eqb (c_name pit) "pit" && String.eqb (c_name inner_shell) "inner shell"
        && String.eqb (c_name outer_shell) "outer shell"
        && String.eqb (material_of pit) (material_of outer_shell)
        && negb (String.eqb (material_of pit) (material_of inner_shell))
        && match surface_in pit "inner shell", surface_in inner_shell "inner shell" with
           | Some i, Some j => Nat.eqb i j | _, _ => false end
        && at_x 0%Z 0%Z "pit" && at_x 5%Z (-1)%Z "pit" && at_x 1%Z 0%Z "inner shell"
        && at_x 15%Z (-1)%Z "inner shell" && at_x 2%Z 0%Z "outer shell"
        && at_x 25%Z (-1)%Z "outer shell"
    | _ => false
    end) = true.
Proof. checked. Qed.

(** ** test_HDF5.cpp: sizes 4, 3 and 2 *)
Example out_of_range :
  let axis n := repeat (d 0 0) n in
  let ds := make_dataset [axis 4%nat; axis 3%nat; axis 2%nat] (axis 24%nat) in
  throws (ds_at ds [4; 0; 0]%N) "Out-of-range (level, index): (0, 4)"
  && throws (ds_at ds [0; 3; 0]%N) "Out-of-range (level, index): (1, 3)"
  && throws (ds_at ds [0; 0; 2]%N) "Out-of-range (level, index): (2, 2)"
  && ok (ds_at ds [3; 2; 1]%N) (fun _ => true) = true.
Proof. checked. Qed.

(** ** test_XMLDocument.cpp, with the schema test_XMLDocument.xsd, and the documents
    that the other tests and the benchmarks open, with minimc.xsd *)
Definition test_schema : etype := TComplex [] false (CAll [one "expected_node" TAny]).
Example documents :
  valid repo_lexical test_schema doc_test_XMLDocument_valid
  && negb (valid repo_lexical test_schema doc_test_XMLDocument_invalid) = true.
Proof. checked. Qed.
Definition repo_documents : list xml :=
  [doc_continuous; doc_continuous_invalid_nuclide_data_path; doc_multigroup;
   doc_multigroup_critical; doc_multigroup_malformed_capture; doc_multigroup_malformed_scatter;
   doc_multigroup_missing_particle_data; doc_multigroup_nonexistent_nuclide;
   doc_point_source_leakage; doc_test_ThermalScattering; doc_broomstick;
   doc_continuous_temperature; doc_multi_zone; doc_single_zone].
Example valid_documents : forallb (valid_document repo_lexical) repo_documents = true.
Proof. checked. Qed.

(** ** test_FixedSource.cpp: leakage from a point source in a sphere one mean free path
    in radius, on two threads; 100 histories instead of the test's 1000, because coqchk has
    no virtual machine *)
Definition turns : list nat := List.concat (repeat [0; 1]%nat 101).
Definition shorter (dr : driver (A := D64)) : driver (A := D64) :=
  mkDriver (dr_world dr) (dr_perts dr) 100 (dr_seed dr) (dr_init dr) (dr_threads dr)
    (dr_tracking dr) (dr_source dr).
Definition leakage_run : outcome (num D64) :=
  bind (fixed_source_create repo_ext (root doc_point_source_leakage)) (fun dr0 =>
  let dr := shorter dr0 in
  bind (solver_result dr (run_schedule (G := Minstd D64) dr 50 (solver_start dr 0) turns)) (fun ss =>
  bind (find_estimator ss "leakage") (fun e => sc_get_score (es_scorable e) 0 (d 100 0)))).
(** exp(-1), and epsilon::Bernoulli of test/Statistics.hpp: three standard deviations *)
Definition expected : num D64 := d 36787944117144233 (-17).
Definition bernoulli (p samples : num D64) : num D64 :=
  nmul D64 (d 3 0) (nsqrt D64 (ndiv D64 (nsub D64 (d 1 0) p) (nmul D64 p samples))).
Example leakage :
  ok leakage_run (fun x => eq64 x (d 37 (-2))
                           && within_rel x expected (bernoulli expected (d 100 0))) = true.
Proof. checked. Qed.
