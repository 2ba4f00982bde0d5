(** The input documents of test/ and benchmarks/ in /repo, written by
    tools/mkdocs.py. *)
From Coq Require Import String List.
From Verif Require Import Model.Xml.
Import ListNotations.
Local Open Scope string_scope.

(** test/continuous.xml *)
Definition doc_continuous : xml :=
  Elem "minimc" [] [
    Elem "general" [] [
      Elem "particles" [] [] "neutron";
      Elem "histories" [] [] "100000";
      Elem "threads" [] [] "2";
      Elem "chunksize" [] [] "1000"] "";
    Elem "nuclides" [] [
      Elem "continuous" [] [
        Elem "nuclide" [("name", "hydrogen"); ("awr", "0.999167339")] [
          Elem "neutron" [] [
            Elem "total" [("file", "n-H1_0-total.hdf5"); ("temperature", "293.6")] [] "";
            Elem "capture" [("file", "n-H1_0-gamma.hdf5"); ("temperature", "293.6")] [] "";
            Elem "scatter" [] [
              Elem "xs" [("file", "n-H1_0-elastic.hdf5"); ("temperature", "293.6")] [] ""] ""] ""] "";
        Elem "nuclide" [("name", "oxygen"); ("awr", "15.8575107")] [
          Elem "neutron" [] [
            Elem "total" [("file", "n-O16_0-total.hdf5"); ("temperature", "293.6")] [] "";
            Elem "capture" [("file", "n-O16_0-gamma.hdf5"); ("temperature", "293.6")] [] "";
            Elem "scatter" [] [
              Elem "xs" [("file", "n-O16_0-elastic.hdf5"); ("temperature", "293.6")] [] ""] ""] ""] "";
        Elem "nuclide" [("name", "uranium235"); ("awr", "233.024791")] [
          Elem "neutron" [] [
            Elem "total" [("file", "n-U235_0-total.hdf5"); ("temperature", "293.6")] [] "";
            Elem "capture" [("file", "n-U235_0-gamma.hdf5"); ("temperature", "293.6")] [] "";
            Elem "scatter" [] [
              Elem "xs" [("file", "n-U235_0-elastic.hdf5"); ("temperature", "293.6")] [] ""] "";
            Elem "fission" [] [
              Elem "xs" [("file", "n-U235_0-fission.hdf5"); ("temperature", "293.6")] [] "";
              Elem "nubar" [("file", "n-U235_0-nubar.hdf5"); ("temperature", "293.6")] [] ""] ""] ""] ""] ""] "";
    Elem "materials" [] [
      Elem "material" [("name", "water"); ("aden", "2")] [
        Elem "nuclide" [("name", "hydrogen"); ("afrac", "0.67")] [] "";
        Elem "nuclide" [("name", "oxygen"); ("afrac", "0.33")] [] ""] "";
      Elem "material" [("name", "hydrogen"); ("aden", "1")] [
        Elem "nuclide" [("name", "hydrogen"); ("afrac", "0.1")] [] ""] "";
      Elem "material" [("name", "oxygen"); ("aden", "1")] [
        Elem "nuclide" [("name", "oxygen"); ("afrac", "0.1")] [] ""] ""] "";
    Elem "surfaces" [] [
      Elem "sphere" [("name", "inner sphere")] [
        Elem "center" [("x", "0"); ("y", "0"); ("z", "0")] [] "";
        Elem "radius" [("r", "1")] [] ""] "";
      Elem "sphere" [("name", "middle sphere")] [
        Elem "center" [("x", "0"); ("y", "0"); ("z", "0")] [] "";
        Elem "radius" [("r", "2")] [] ""] "";
      Elem "sphere" [("name", "outer sphere")] [
        Elem "center" [("x", "0"); ("y", "0"); ("z", "0")] [] "";
        Elem "radius" [("r", "3")] [] ""] ""] "";
    Elem "cells" [] [
      Elem "cell" [("name", "pit"); ("material", "hydrogen")] [
        Elem "surface" [("name", "inner sphere"); ("sense", "-1")] [] ""] "";
      Elem "cell" [("name", "inner shell"); ("material", "water")] [
        Elem "surface" [("name", "inner sphere"); ("sense", "+1")] [] "";
        Elem "surface" [("name", "middle sphere"); ("sense", "-1")] [] ""] "";
      Elem "cell" [("name", "outer shell"); ("material", "hydrogen")] [
        Elem "surface" [("name", "middle sphere"); ("sense", "+1")] [] "";
        Elem "surface" [("name", "outer sphere"); ("sense", "-1")] [] ""] ""] "";
    Elem "problemtype" [] [
      Elem "fixedsource" [] [
        Elem "position" [] [
          Elem "constant" [("x", "0"); ("y", "0"); ("z", "0")] [] ""] "";
        Elem "direction" [] [
          Elem "isotropic" [] [] ""] "";
        Elem "energy" [] [
          Elem "constant" [("energy", "1e-6")] [] ""] "";
        Elem "particletype" [] [
          Elem "constant" [("type", "neutron")] [] ""] ""] ""] "";
    Elem "temperature" [] [
      Elem "constant" [("c", "273")] [] ""] ""] "".

(** test/continuous_invalid_nuclide_data_path.xml *)
Definition doc_continuous_invalid_nuclide_data_path : xml :=
  Elem "minimc" [] [
    Elem "general" [] [
      Elem "particles" [] [] "neutron";
      Elem "histories" [] [] "100000";
      Elem "threads" [] [] "2";
      Elem "chunksize" [] [] "1000"] "";
    Elem "nuclides" [] [
      Elem "continuous" [] [
        Elem "nuclide" [("name", "badpath"); ("awr", "1.0")] [
          Elem "neutron" [] [
            Elem "total" [("file", "/not/real"); ("temperature", "293.6")] [] "";
            Elem "capture" [("file", "/not/real"); ("temperature", "293.6")] [] "";
            Elem "scatter" [] [
              Elem "xs" [("file", "/not/real"); ("temperature", "293.6")] [] ""] ""] ""] ""] ""] "";
    Elem "materials" [] [
      Elem "material" [("name", "material"); ("aden", "1")] [
        Elem "nuclide" [("name", "badpath"); ("afrac", "1.0")] [] ""] ""] "";
    Elem "surfaces" [] [
      Elem "sphere" [("name", "sphere")] [
        Elem "center" [("x", "0"); ("y", "0"); ("z", "0")] [] "";
        Elem "radius" [("r", "1")] [] ""] ""] "";
    Elem "cells" [] [
      Elem "cell" [("name", "cell"); ("material", "material")] [
        Elem "surface" [("name", "sphere"); ("sense", "-1")] [] ""] "";
      Elem "void" [] [
        Elem "surface" [("name", "sphere"); ("sense", "+1")] [] ""] ""] "";
    Elem "problemtype" [] [
      Elem "fixedsource" [] [
        Elem "position" [] [
          Elem "constant" [("x", "0"); ("y", "0"); ("z", "0")] [] ""] "";
        Elem "direction" [] [
          Elem "isotropic" [] [] ""] "";
        Elem "energy" [] [
          Elem "constant" [("energy", "1e-6")] [] ""] "";
        Elem "particletype" [] [
          Elem "constant" [("type", "neutron")] [] ""] ""] ""] ""] "".

(** test/multigroup.xml *)
Definition doc_multigroup : xml :=
  Elem "minimc" [] [
    Elem "general" [] [
      Elem "particles" [] [] "neutron";
      Elem "histories" [] [] "100000";
      Elem "threads" [] [] "2";
      Elem "chunksize" [] [] "1000"] "";
    Elem "nuclides" [] [
      Elem "multigroup" [("groups", "2")] [
        Elem "nuclide" [("name", "hydrogen")] [
          Elem "neutron" [] [
            Elem "capture" [] [] "0 1";
            Elem "scatter" [] [] "
          0 0
          1 0
        "] ""] "";
        Elem "nuclide" [("name", "oxygen")] [
          Elem "neutron" [] [
            Elem "capture" [] [] "0.5 0.5";
            Elem "scatter" [] [] "
          0.5 0.0
          0.5 0.5
        "] ""] "";
        Elem "nuclide" [("name", "uranium235")] [
          Elem "neutron" [] [
            Elem "capture" [] [] "0.33 0.67";
            Elem "scatter" [] [] "
          1 0
          0 1
        ";
            Elem "fission" [] [
              Elem "xs" [] [] "0 1";
              Elem "nubar" [] [] "0 2.43";
              Elem "chi" [] [] "
            0 0.5
            0 0.5
          "] ""] ""] ""] ""] "";
    Elem "materials" [] [
      Elem "material" [("name", "water"); ("aden", "2")] [
        Elem "nuclide" [("name", "hydrogen"); ("afrac", "0.67")] [] "";
        Elem "nuclide" [("name", "oxygen"); ("afrac", "0.33")] [] ""] "";
      Elem "material" [("name", "hydrogen"); ("aden", "1")] [
        Elem "nuclide" [("name", "hydrogen"); ("afrac", "0.1")] [] ""] "";
      Elem "material" [("name", "oxygen"); ("aden", "1")] [
        Elem "nuclide" [("name", "oxygen"); ("afrac", "0.1")] [] ""] ""] "";
    Elem "surfaces" [] [
      Elem "sphere" [("name", "inner shell")] [
        Elem "center" [("x", "0"); ("y", "0"); ("z", "0")] [] "";
        Elem "radius" [("r", "1")] [] ""] "";
      Elem "sphere" [("name", "middle shell")] [
        Elem "center" [("x", "0"); ("y", "0"); ("z", "0")] [] "";
        Elem "radius" [("r", "2")] [] ""] "";
      Elem "sphere" [("name", "outer shell")] [
        Elem "center" [("x", "0"); ("y", "0"); ("z", "0")] [] "";
        Elem "radius" [("r", "3")] [] ""] ""] "";
    Elem "cells" [] [
      Elem "cell" [("name", "pit"); ("material", "hydrogen")] [
        Elem "surface" [("name", "inner shell"); ("sense", "-1")] [] ""] "";
      Elem "cell" [("name", "inner shell"); ("material", "water")] [
        Elem "surface" [("name", "inner shell"); ("sense", "+1")] [] "";
        Elem "surface" [("name", "middle shell"); ("sense", "-1")] [] ""] "";
      Elem "cell" [("name", "outer shell"); ("material", "hydrogen")] [
        Elem "surface" [("name", "middle shell"); ("sense", "+1")] [] "";
        Elem "surface" [("name", "outer shell"); ("sense", "-1")] [] ""] "";
      Elem "void" [] [
        Elem "surface" [("name", "outer shell"); ("sense", "+1")] [] ""] ""] "";
    Elem "problemtype" [] [
      Elem "fixedsource" [] [
        Elem "position" [] [
          Elem "constant" [("x", "0"); ("y", "0"); ("z", "0")] [] ""] "";
        Elem "direction" [] [
          Elem "isotropic" [] [] ""] "";
        Elem "energy" [] [
          Elem "constant" [("energy", "1")] [] ""] "";
        Elem "particletype" [] [
          Elem "constant" [("type", "neutron")] [] ""] ""] ""] ""] "".

(** test/multigroup_critical.xml *)
Definition doc_multigroup_critical : xml :=
  Elem "minimc" [] [
    Elem "general" [] [
      Elem "particles" [] [] "neutron";
      Elem "histories" [] [] "100000";
      Elem "threads" [] [] "2";
      Elem "chunksize" [] [] "100"] "";
    Elem "nuclides" [] [
      Elem "multigroup" [("groups", "1")] [
        Elem "nuclide" [("name", "fissile")] [
          Elem "neutron" [] [
            Elem "capture" [] [] "0.75";
            Elem "scatter" [] [] "0.25";
            Elem "fission" [] [
              Elem "xs" [] [] "0";
              Elem "nubar" [] [] "1";
              Elem "chi" [] [] "1.0"] ""] ""] ""] ""] "";
    Elem "materials" [] [
      Elem "material" [("name", "fissile"); ("aden", "1")] [
        Elem "nuclide" [("name", "fissile"); ("afrac", "1.0")] [] ""] ""] "";
    Elem "surfaces" [] [
      Elem "sphere" [("name", "sphere")] [
        Elem "center" [("x", "0"); ("y", "0"); ("z", "0")] [] "";
        Elem "radius" [("r", "1e10")] [] ""] ""] "";
    Elem "cells" [] [
      Elem "cell" [("name", "sphere"); ("material", "fissile")] [
        Elem "surface" [("name", "sphere"); ("sense", "-1")] [] ""] "";
      Elem "void" [] [
        Elem "surface" [("name", "sphere"); ("sense", "+1")] [] ""] ""] "";
    Elem "problemtype" [] [
      Elem "fixedsource" [] [
        Elem "position" [] [
          Elem "constant" [("x", "0"); ("y", "0"); ("z", "0")] [] ""] "";
        Elem "direction" [] [
          Elem "isotropic" [] [] ""] "";
        Elem "energy" [] [
          Elem "constant" [("energy", "1")] [] ""] "";
        Elem "particletype" [] [
          Elem "constant" [("type", "neutron")] [] ""] ""] ""] ""] "".

(** test/multigroup_malformed_capture.xml *)
Definition doc_multigroup_malformed_capture : xml :=
  Elem "minimc" [] [
    Elem "general" [] [
      Elem "particles" [] [] "neutron";
      Elem "histories" [] [] "100000";
      Elem "threads" [] [] "2";
      Elem "chunksize" [] [] "1000"] "";
    Elem "nuclides" [] [
      Elem "multigroup" [("groups", "2")] [
        Elem "nuclide" [("name", "malformed capture")] [
          Elem "neutron" [] [
            Elem "capture" [] [] "0 1 1"] ""] ""] ""] "";
    Elem "materials" [] [
      Elem "material" [("name", "material"); ("aden", "1")] [
        Elem "nuclide" [("name", "malformed capture"); ("afrac", "1.0")] [] ""] ""] "";
    Elem "surfaces" [] [
      Elem "sphere" [("name", "sphere")] [
        Elem "center" [("x", "0"); ("y", "0"); ("z", "0")] [] "";
        Elem "radius" [("r", "1")] [] ""] ""] "";
    Elem "cells" [] [
      Elem "cell" [("name", "cell"); ("material", "material")] [
        Elem "surface" [("name", "sphere"); ("sense", "-1")] [] ""] "";
      Elem "void" [] [
        Elem "surface" [("name", "sphere"); ("sense", "+1")] [] ""] ""] "";
    Elem "problemtype" [] [
      Elem "fixedsource" [] [
        Elem "position" [] [
          Elem "constant" [("x", "0"); ("y", "0"); ("z", "0")] [] ""] "";
        Elem "direction" [] [
          Elem "isotropic" [] [] ""] "";
        Elem "energy" [] [
          Elem "constant" [("energy", "1")] [] ""] "";
        Elem "particletype" [] [
          Elem "constant" [("type", "neutron")] [] ""] ""] ""] ""] "".

(** test/multigroup_malformed_scatter.xml *)
Definition doc_multigroup_malformed_scatter : xml :=
  Elem "minimc" [] [
    Elem "general" [] [
      Elem "particles" [] [] "neutron";
      Elem "histories" [] [] "100000";
      Elem "threads" [] [] "2";
      Elem "chunksize" [] [] "1000"] "";
    Elem "nuclides" [] [
      Elem "multigroup" [("groups", "2")] [
        Elem "nuclide" [("name", "malformed capture")] [
          Elem "neutron" [] [
            Elem "scatter" [] [] "
          0 0
          1 0 0
        "] ""] ""] ""] "";
    Elem "materials" [] [
      Elem "material" [("name", "material"); ("aden", "1")] [
        Elem "nuclide" [("name", "malformed capture"); ("afrac", "1.0")] [] ""] ""] "";
    Elem "surfaces" [] [
      Elem "sphere" [("name", "sphere")] [
        Elem "center" [("x", "0"); ("y", "0"); ("z", "0")] [] "";
        Elem "radius" [("r", "1")] [] ""] ""] "";
    Elem "cells" [] [
      Elem "cell" [("name", "cell"); ("material", "material")] [
        Elem "surface" [("name", "sphere"); ("sense", "-1")] [] ""] "";
      Elem "void" [] [
        Elem "surface" [("name", "sphere"); ("sense", "+1")] [] ""] ""] "";
    Elem "problemtype" [] [
      Elem "fixedsource" [] [
        Elem "position" [] [
          Elem "constant" [("x", "0"); ("y", "0"); ("z", "0")] [] ""] "";
        Elem "direction" [] [
          Elem "isotropic" [] [] ""] "";
        Elem "energy" [] [
          Elem "constant" [("energy", "1")] [] ""] "";
        Elem "particletype" [] [
          Elem "constant" [("type", "neutron")] [] ""] ""] ""] ""] "".

(** test/multigroup_missing_particle_data.xml *)
Definition doc_multigroup_missing_particle_data : xml :=
  Elem "minimc" [] [
    Elem "general" [] [
      Elem "particles" [] [] "neutron";
      Elem "histories" [] [] "100000";
      Elem "threads" [] [] "2";
      Elem "chunksize" [] [] "1000"] "";
    Elem "nuclides" [] [
      Elem "multigroup" [("groups", "2")] [
        Elem "nuclide" [("name", "missing data")] [] ""] ""] "";
    Elem "materials" [] [
      Elem "material" [("name", "material"); ("aden", "1")] [
        Elem "nuclide" [("name", "missing data"); ("afrac", "1.0")] [] ""] ""] "";
    Elem "surfaces" [] [
      Elem "sphere" [("name", "sphere")] [
        Elem "center" [("x", "0"); ("y", "0"); ("z", "0")] [] "";
        Elem "radius" [("r", "1")] [] ""] ""] "";
    Elem "cells" [] [
      Elem "cell" [("name", "cell"); ("material", "material")] [
        Elem "surface" [("name", "sphere"); ("sense", "-1")] [] ""] "";
      Elem "void" [] [
        Elem "surface" [("name", "sphere"); ("sense", "+1")] [] ""] ""] "";
    Elem "problemtype" [] [
      Elem "fixedsource" [] [
        Elem "position" [] [
          Elem "constant" [("x", "0"); ("y", "0"); ("z", "0")] [] ""] "";
        Elem "direction" [] [
          Elem "isotropic" [] [] ""] "";
        Elem "energy" [] [
          Elem "constant" [("energy", "1")] [] ""] "";
        Elem "particletype" [] [
          Elem "constant" [("type", "neutron")] [] ""] ""] ""] ""] "".

(** test/multigroup_nonexistent_nuclide.xml *)
Definition doc_multigroup_nonexistent_nuclide : xml :=
  Elem "minimc" [] [
    Elem "general" [] [
      Elem "particles" [] [] "neutron";
      Elem "histories" [] [] "100000";
      Elem "threads" [] [] "2";
      Elem "chunksize" [] [] "1000"] "";
    Elem "nuclides" [] [
      Elem "multigroup" [("groups", "1")] [
        Elem "nuclide" [("name", "nuclide A")] [] "";
        Elem "nuclide" [("name", "nuclide B")] [] ""] ""] "";
    Elem "materials" [] [
      Elem "material" [("name", "material"); ("aden", "1")] [
        Elem "nuclide" [("name", "nonexistent"); ("afrac", "1.0")] [] ""] ""] "";
    Elem "surfaces" [] [
      Elem "sphere" [("name", "sphere")] [
        Elem "center" [("x", "0"); ("y", "0"); ("z", "0")] [] "";
        Elem "radius" [("r", "1")] [] ""] ""] "";
    Elem "cells" [] [
      Elem "cell" [("name", "cell"); ("material", "material")] [
        Elem "surface" [("name", "sphere"); ("sense", "-1")] [] ""] "";
      Elem "void" [] [
        Elem "surface" [("name", "sphere"); ("sense", "+1")] [] ""] ""] "";
    Elem "problemtype" [] [
      Elem "fixedsource" [] [
        Elem "position" [] [
          Elem "constant" [("x", "0"); ("y", "0"); ("z", "0")] [] ""] "";
        Elem "direction" [] [
          Elem "isotropic" [] [] ""] "";
        Elem "energy" [] [
          Elem "constant" [("energy", "1")] [] ""] "";
        Elem "particletype" [] [
          Elem "constant" [("type", "neutron")] [] ""] ""] ""] ""] "".

(** test/point_source_leakage.xml *)
Definition doc_point_source_leakage : xml :=
  Elem "minimc" [] [
    Elem "general" [] [
      Elem "particles" [] [] "neutron";
      Elem "histories" [] [] "1000";
      Elem "threads" [] [] "2";
      Elem "chunksize" [] [] "500"] "";
    Elem "nuclides" [] [
      Elem "multigroup" [("groups", "1")] [
        Elem "nuclide" [("name", "absorber")] [
          Elem "neutron" [] [
            Elem "capture" [] [] "1"] ""] ""] ""] "";
    Elem "materials" [] [
      Elem "material" [("name", "absorber"); ("aden", "1")] [
        Elem "nuclide" [("name", "absorber"); ("afrac", "1")] [] ""] ""] "";
    Elem "surfaces" [] [
      Elem "sphere" [("name", "sphere")] [
        Elem "center" [("x", "0"); ("y", "0"); ("z", "0")] [] "";
        Elem "radius" [("r", "1")] [] ""] ""] "";
    Elem "cells" [] [
      Elem "cell" [("name", "sphere"); ("material", "absorber")] [
        Elem "surface" [("name", "sphere"); ("sense", "-1")] [] ""] "";
      Elem "void" [] [
        Elem "surface" [("name", "sphere"); ("sense", "+1")] [] ""] ""] "";
    Elem "problemtype" [] [
      Elem "fixedsource" [] [
        Elem "position" [] [
          Elem "constant" [("x", "0"); ("y", "0"); ("z", "0")] [] ""] "";
        Elem "direction" [] [
          Elem "isotropic" [] [] ""] "";
        Elem "energy" [] [
          Elem "constant" [("energy", "1")] [] ""] "";
        Elem "particletype" [] [
          Elem "constant" [("type", "neutron")] [] ""] ""] ""] "";
    Elem "estimators" [] [
      Elem "current" [("name", "leakage"); ("surface", "sphere")] [] ""] ""] "".

(** test/test_ThermalScattering.xml *)
Definition doc_test_ThermalScattering : xml :=
  Elem "minimc" [] [
    Elem "general" [] [
      Elem "particles" [] [] "neutron";
      Elem "histories" [] [] "100";
      Elem "threads" [] [] "2";
      Elem "chunksize" [] [] "10";
      Elem "tracking" [] [] "cell delta"] "";
    Elem "nuclides" [] [
      Elem "continuous" [] [
        Elem "nuclide" [("name", "hydrogen in water"); ("awr", "0.999167339")] [
          Elem "neutron" [] [
            Elem "total" [("file", "n-H1_0-total.hdf5"); ("temperature", "293.6")] [] "";
            Elem "capture" [("file", "n-H1_0-gamma.hdf5"); ("temperature", "293.6")] [] "";
            Elem "scatter" [] [
              Elem "xs" [("file", "n-H1_0-elastic.hdf5"); ("temperature", "293.6")] [] "";
              Elem "tsl" [("majorant", "majorant_endfb8_safety_factor_1.05.hdf5"); ("total_T", "scatter_xs_endfb8_T_coeffs.hdf5"); ("total_S", "scatter_xs_endfb8_S_coeffs.hdf5"); ("total_E", "scatter_xs_endfb8_E_coeffs.hdf5"); ("beta_cutoff", "20.0"); ("alpha_cutoff", "1636.7475317348378")] [
                Elem "beta_partitions" [] [
                  Elem "partition" [("CDF", "beta_endfb8_0_CDF_coeffs.hdf5"); ("S", "beta_endfb8_0_S_coeffs.hdf5"); ("E_T", "beta_endfb8_0_E_T_coeffs.hdf5")] [] "";
                  Elem "partition" [("CDF", "beta_endfb8_1_CDF_coeffs.hdf5"); ("S", "beta_endfb8_1_S_coeffs.hdf5"); ("E_T", "beta_endfb8_1_E_T_coeffs.hdf5")] [] "";
                  Elem "partition" [("CDF", "beta_endfb8_2_CDF_coeffs.hdf5"); ("S", "beta_endfb8_2_S_coeffs.hdf5"); ("E_T", "beta_endfb8_2_E_T_coeffs.hdf5")] [] "";
                  Elem "partition" [("CDF", "beta_endfb8_3_CDF_coeffs.hdf5"); ("S", "beta_endfb8_3_S_coeffs.hdf5"); ("E_T", "beta_endfb8_3_E_T_coeffs.hdf5")] [] ""] "";
                Elem "alpha_partitions" [] [
                  Elem "partition" [("CDF", "alpha_endfb8_0_CDF_coeffs.hdf5"); ("S", "alpha_endfb8_0_S_coeffs.hdf5"); ("beta_T", "alpha_endfb8_0_beta_T_coeffs.hdf5")] [] "";
                  Elem "partition" [("CDF", "alpha_endfb8_1_CDF_coeffs.hdf5"); ("S", "alpha_endfb8_1_S_coeffs.hdf5"); ("beta_T", "alpha_endfb8_1_beta_T_coeffs.hdf5")] [] "";
                  Elem "partition" [("CDF", "alpha_endfb8_2_CDF_coeffs.hdf5"); ("S", "alpha_endfb8_2_S_coeffs.hdf5"); ("beta_T", "alpha_endfb8_2_beta_T_coeffs.hdf5")] [] "";
                  Elem "partition" [("CDF", "alpha_endfb8_3_CDF_coeffs.hdf5"); ("S", "alpha_endfb8_3_S_coeffs.hdf5"); ("beta_T", "alpha_endfb8_3_beta_T_coeffs.hdf5")] [] ""] ""] ""] ""] ""] ""] ""] "";
    Elem "materials" [] [
      Elem "material" [("name", "hydrogen in water"); ("aden", "0.066854")] [
        Elem "nuclide" [("name", "hydrogen in water"); ("afrac", "1")] [] ""] ""] "";
    Elem "surfaces" [] [
      Elem "sphere" [("name", "sphere")] [
        Elem "center" [("x", "0"); ("y", "0"); ("z", "0")] [] "";
        Elem "radius" [("r", "1e8")] [] ""] ""] "";
    Elem "cells" [] [
      Elem "cell" [("name", "sphere"); ("material", "hydrogen in water"); ("temperature", "400.0")] [
        Elem "surface" [("name", "sphere"); ("sense", "-1")] [] ""] ""] "";
    Elem "problemtype" [] [
      Elem "fixedsource" [] [
        Elem "position" [] [
          Elem "constant" [("x", "0"); ("y", "0"); ("z", "0")] [] ""] "";
        Elem "direction" [] [
          Elem "constant" [("x", "1"); ("y", "0"); ("z", "0")] [] ""] "";
        Elem "energy" [] [
          Elem "constant" [("energy", "1.05e-6")] [] ""] "";
        Elem "particletype" [] [
          Elem "constant" [("type", "neutron")] [] ""] ""] ""] "";
    Elem "temperature" [] [
      Elem "linear" [] [
        Elem "bounds" [("lower", "273.6"); ("upper", "800.0")] [] "";
        Elem "intercept" [("b", "0")] [] "";
        Elem "gradient" [("x", "1"); ("y", "0"); ("z", "0")] [] ""] ""] ""] "".

(** test/test_XMLDocument_invalid.xml *)
Definition doc_test_XMLDocument_invalid : xml :=
  Elem "minimc" [] [
    Elem "unexpected_node" [] [] ""] "".

(** test/test_XMLDocument_valid.xml *)
Definition doc_test_XMLDocument_valid : xml :=
  Elem "minimc" [] [
    Elem "expected_node" [] [] ""] "".

(** benchmarks/broomstick.xml *)
Definition doc_broomstick : xml :=
  Elem "minimc" [] [
    Elem "general" [] [
      Elem "particles" [] [] "neutron";
      Elem "histories" [] [] "100000000";
      Elem "threads" [] [] "8";
      Elem "chunksize" [] [] "100000";
      Elem "tracking" [] [] "surface"] "";
    Elem "nuclides" [] [
      Elem "continuous" [] [
        Elem "nuclide" [("name", "hydrogen in water"); ("awr", "0.99916733")] [
          Elem "neutron" [] [
            Elem "total" [("file", "/Users/atumulak/Developer/minimc/data/endfb8/n-H1_0-total.hdf5"); ("temperature", "293.6")] [] "";
            Elem "capture" [("file", "/Users/atumulak/Developer/minimc/data/endfb8/n-H1_0-gamma.hdf5"); ("temperature", "293.6")] [] "";
            Elem "scatter" [] [
              Elem "xs" [("file", "/Users/atumulak/Developer/minimc/data/endfb8/n-H1_0-elastic.hdf5"); ("temperature", "293.6")] [] "";
              Elem "tsl" [("majorant", "/Users/atumulak/Developer/minimc/data/tsl/endfb8/majorant_endfb8_safety_factor_1.05.hdf5"); ("total_T", "/Users/atumulak/Developer/minimc/data/tsl/endfb8/scatter_xs_endfb8_T_coeffs.hdf5"); ("total_S", "/Users/atumulak/Developer/minimc/data/tsl/endfb8/scatter_xs_endfb8_S_coeffs.hdf5"); ("total_E", "/Users/atumulak/Developer/minimc/data/tsl/endfb8/scatter_xs_endfb8_E_coeffs.hdf5"); ("beta_cutoff", "20.0"); ("alpha_cutoff", "1636.7475317348378")] [
                Elem "beta_partitions" [] [
                  Elem "partition" [("CDF", "/Users/atumulak/Developer/minimc/data/tsl/endfb8/beta_endfb8_0_CDF_coeffs.hdf5"); ("S", "/Users/atumulak/Developer/minimc/data/tsl/endfb8/beta_endfb8_0_S_coeffs.hdf5"); ("E_T", "/Users/atumulak/Developer/minimc/data/tsl/endfb8/beta_endfb8_0_E_T_coeffs.hdf5")] [] "";
                  Elem "partition" [("CDF", "/Users/atumulak/Developer/minimc/data/tsl/endfb8/beta_endfb8_1_CDF_coeffs.hdf5"); ("S", "/Users/atumulak/Developer/minimc/data/tsl/endfb8/beta_endfb8_1_S_coeffs.hdf5"); ("E_T", "/Users/atumulak/Developer/minimc/data/tsl/endfb8/beta_endfb8_1_E_T_coeffs.hdf5")] [] "";
                  Elem "partition" [("CDF", "/Users/atumulak/Developer/minimc/data/tsl/endfb8/beta_endfb8_2_CDF_coeffs.hdf5"); ("S", "/Users/atumulak/Developer/minimc/data/tsl/endfb8/beta_endfb8_2_S_coeffs.hdf5"); ("E_T", "/Users/atumulak/Developer/minimc/data/tsl/endfb8/beta_endfb8_2_E_T_coeffs.hdf5")] [] "";
                  Elem "partition" [("CDF", "/Users/atumulak/Developer/minimc/data/tsl/endfb8/beta_endfb8_3_CDF_coeffs.hdf5"); ("S", "/Users/atumulak/Developer/minimc/data/tsl/endfb8/beta_endfb8_3_S_coeffs.hdf5"); ("E_T", "/Users/atumulak/Developer/minimc/data/tsl/endfb8/beta_endfb8_3_E_T_coeffs.hdf5")] [] ""] "";
                Elem "alpha_partitions" [] [
                  Elem "partition" [("CDF", "/Users/atumulak/Developer/minimc/data/tsl/endfb8/alpha_endfb8_0_CDF_coeffs.hdf5"); ("S", "/Users/atumulak/Developer/minimc/data/tsl/endfb8/alpha_endfb8_0_S_coeffs.hdf5"); ("beta_T", "/Users/atumulak/Developer/minimc/data/tsl/endfb8/alpha_endfb8_0_beta_T_coeffs.hdf5")] [] "";
                  Elem "partition" [("CDF", "/Users/atumulak/Developer/minimc/data/tsl/endfb8/alpha_endfb8_1_CDF_coeffs.hdf5"); ("S", "/Users/atumulak/Developer/minimc/data/tsl/endfb8/alpha_endfb8_1_S_coeffs.hdf5"); ("beta_T", "/Users/atumulak/Developer/minimc/data/tsl/endfb8/alpha_endfb8_1_beta_T_coeffs.hdf5")] [] "";
                  Elem "partition" [("CDF", "/Users/atumulak/Developer/minimc/data/tsl/endfb8/alpha_endfb8_2_CDF_coeffs.hdf5"); ("S", "/Users/atumulak/Developer/minimc/data/tsl/endfb8/alpha_endfb8_2_S_coeffs.hdf5"); ("beta_T", "/Users/atumulak/Developer/minimc/data/tsl/endfb8/alpha_endfb8_2_beta_T_coeffs.hdf5")] [] "";
                  Elem "partition" [("CDF", "/Users/atumulak/Developer/minimc/data/tsl/endfb8/alpha_endfb8_3_CDF_coeffs.hdf5"); ("S", "/Users/atumulak/Developer/minimc/data/tsl/endfb8/alpha_endfb8_3_S_coeffs.hdf5"); ("beta_T", "/Users/atumulak/Developer/minimc/data/tsl/endfb8/alpha_endfb8_3_beta_T_coeffs.hdf5")] [] ""] ""] ""] ""] ""] ""] ""] "";
    Elem "materials" [] [
      Elem "material" [("name", "hydrogen in water"); ("aden", "0.066854")] [
        Elem "nuclide" [("name", "hydrogen in water"); ("afrac", "1")] [] ""] ""] "";
    Elem "surfaces" [] [
      Elem "cylinderx" [("name", "cylinder"); ("r", "1e-6")] [] "";
      Elem "planex" [("name", "left-plane"); ("x", "-0.5e12")] [] "";
      Elem "planex" [("name", "right-plane"); ("x", "0.5e12")] [] ""] "";
    Elem "cells" [] [
      Elem "void" [] [
        Elem "surface" [("name", "left-plane"); ("sense", "-1")] [] ""] "";
      Elem "void" [] [
        Elem "surface" [("name", "right-plane"); ("sense", "+1")] [] ""] "";
      Elem "void" [] [
        Elem "surface" [("name", "cylinder"); ("sense", "+1")] [] "";
        Elem "surface" [("name", "left-plane"); ("sense", "+1")] [] "";
        Elem "surface" [("name", "right-plane"); ("sense", "-1")] [] ""] "";
      Elem "cell" [("name", "broomstick"); ("material", "hydrogen in water")] [
        Elem "surface" [("name", "cylinder"); ("sense", "-1")] [] "";
        Elem "surface" [("name", "left-plane"); ("sense", "+1")] [] "";
        Elem "surface" [("name", "right-plane"); ("sense", "-1")] [] ""] ""] "";
    Elem "problemtype" [] [
      Elem "fixedsource" [] [
        Elem "position" [] [
          Elem "constant" [("x", "0"); ("y", "0"); ("z", "0")] [] ""] "";
        Elem "direction" [] [
          Elem "constant" [("x", "1"); ("y", "0"); ("z", "0")] [] ""] "";
        Elem "energy" [] [
          Elem "constant" [("energy", "0.56e-6")] [] ""] "";
        Elem "particletype" [] [
          Elem "constant" [("type", "neutron")] [] ""] ""] ""] "";
    Elem "temperature" [] [
      Elem "constant" [("c", "450.0")] [] ""] "";
    Elem "estimators" [] [
      Elem "current" [("name", "leakage"); ("surface", "cylinder")] [
        Elem "bins" [] [
          Elem "cosine" [("u", "1.0"); ("v", "0.0"); ("w", "0.0")] [
            Elem "boundaries" [] [] "-1. -0.98901099 -0.97802198 -0.96703297 -0.95604396 -0.94505495  -0.93406593 -0.92307692 -0.91208791 -0.9010989 -0.89010989  -0.87912088 -0.86813187 -0.85714286 -0.84615385 -0.83516484  -0.82417582 -0.81318681 -0.8021978 -0.79120879 -0.78021978  -0.76923077 -0.75824176 -0.74725275 -0.73626374 -0.72527473  -0.71428571 -0.7032967 -0.69230769 -0.68131868 -0.67032967  -0.65934066 -0.64835165 -0.63736264 -0.62637363 -0.61538462  -0.6043956 -0.59340659 -0.58241758 -0.57142857 -0.56043956  -0.54945055 -0.53846154 -0.52747253 -0.51648352 -0.50549451  -0.49450549 -0.48351648 -0.47252747 -0.46153846 -0.45054945  -0.43956044 -0.42857143 -0.41758242 -0.40659341 -0.3956044  -0.38461538 -0.37362637 -0.36263736 -0.35164835 -0.34065934  -0.32967033 -0.31868132 -0.30769231 -0.2967033 -0.28571429  -0.27472527 -0.26373626 -0.25274725 -0.24175824 -0.23076923  -0.21978022 -0.20879121 -0.1978022 -0.18681319 -0.17582418  -0.16483516 -0.15384615 -0.14285714 -0.13186813 -0.12087912  -0.10989011 -0.0989011 -0.08791209 -0.07692308 -0.06593407  -0.05494505 -0.04395604 -0.03296703 -0.02197802 -0.01098901  0. 0.01098901 0.02197802 0.03296703 0.04395604  0.05494505 0.06593407 0.07692308 0.08791209 0.0989011  0.10989011 0.12087912 0.13186813 0.14285714 0.15384615  0.16483516 0.17582418 0.18681319 0.1978022 0.20879121  0.21978022 0.23076923 0.24175824 0.25274725 0.26373626  0.27472527 0.28571429 0.2967033 0.30769231 0.31868132  0.32967033 0.34065934 0.35164835 0.36263736 0.37362637  0.38461538 0.3956044 0.40659341 0.41758242 0.42857143  0.43956044 0.45054945 0.46153846 0.47252747 0.48351648  0.49450549 0.50549451 0.51648352 0.52747253 0.53846154  0.54945055 0.56043956 0.57142857 0.58241758 0.59340659  0.6043956 0.61538462 0.62637363 0.63736264 0.64835165  0.65934066 0.67032967 0.68131868 0.69230769 0.7032967  0.71428571 0.72527473 0.73626374 0.74725275 0.75824176  0.76923077 0.78021978 0.79120879 0.8021978 0.81318681  0.82417582 0.83516484 0.84615385 0.85714286 0.86813187  0.87912088 0.89010989 0.9010989 0.91208791 0.92307692  0.93406593 0.94505495 0.95604396 0.96703297 0.97802198  0.98901099 1."] "";
          Elem "energy" [] [
            Elem "boundaries" [] [] "3.37603748e-09 2.34734562e-08 4.37391835e-08 6.26309633e-08 8.11792561e-08 9.53309165e-08 1.14153999e-07 1.32015318e-07 1.47815715e-07 1.62585652e-07 1.76668615e-07 1.88512044e-07 2.02773620e-07 2.16513096e-07 2.28878625e-07 2.40557179e-07 2.51548760e-07 2.62196854e-07 2.72501461e-07 2.81672562e-07 2.91736728e-07 3.01010875e-07 3.09598047e-07 3.18185220e-07 3.26085418e-07 3.33642130e-07 3.41198842e-07 3.48068580e-07 3.54938318e-07 3.61464570e-07 3.67647334e-07 3.73641180e-07 3.79325889e-07 3.84821679e-07 3.90317470e-07 3.95126286e-07 4.00278590e-07 4.04743919e-07 4.09209249e-07 4.13674579e-07 4.17796422e-07 4.21574778e-07 4.25353134e-07 4.29131490e-07 4.32566359e-07 4.36001228e-07 4.39092610e-07 4.42183992e-07 4.45275374e-07 4.48023269e-07 4.50771165e-07 4.53175573e-07 4.55923468e-07 4.58327876e-07 4.60388798e-07 4.62793206e-07 4.64854128e-07 4.66822308e-07 4.68975970e-07 4.70693405e-07 4.72410840e-07 4.74128274e-07 4.75845709e-07 4.77563143e-07 4.79280578e-07 4.80998012e-07 4.82715447e-07 4.84432881e-07 4.86150316e-07 4.87867750e-07 4.89585185e-07 4.91302619e-07 4.93020054e-07 4.94737488e-07 4.96454923e-07 4.98172357e-07 4.99889792e-07 5.01607226e-07 5.03324661e-07 5.05042095e-07 5.06759530e-07 5.08476964e-07 5.10194399e-07 5.11911833e-07 5.13629268e-07 5.15346703e-07 5.17064137e-07 5.18781572e-07 5.20499006e-07 5.22216441e-07 5.23933875e-07 5.25651310e-07 5.27368744e-07 5.29086179e-07 5.30803613e-07 5.32521048e-07 5.34238482e-07 5.35955917e-07 5.37673351e-07 5.39390786e-07 5.41108220e-07 5.42825655e-07 5.44543089e-07 5.46260524e-07 5.47977958e-07 5.49695393e-07 5.51412827e-07 5.53130262e-07 5.54847696e-07 5.56565131e-07 5.57423848e-07 5.58282565e-07 5.59141283e-07 5.59656513e-07 5.59828257e-07 5.60000000e-07 5.60171743e-07 5.60343487e-07 5.60858717e-07 5.61717435e-07 5.62576152e-07 5.63434869e-07 5.65152304e-07 5.66869738e-07 5.68587173e-07 5.70304607e-07 5.72022042e-07 5.73739476e-07 5.75456911e-07 5.77174345e-07 5.78891780e-07 5.80609214e-07 5.82326649e-07 5.84044083e-07 5.85761518e-07 5.87478952e-07 5.89196387e-07 5.90913821e-07 5.92631256e-07 5.94348690e-07 5.96066125e-07 5.97783559e-07 5.99500994e-07 6.01218428e-07 6.02935863e-07 6.04653297e-07 6.06370732e-07 6.08088167e-07 6.09805601e-07 6.11523036e-07 6.13240470e-07 6.14957905e-07 6.16675339e-07 6.18392774e-07 6.20110208e-07 6.21827643e-07 6.23545077e-07 6.25262512e-07 6.26979946e-07 6.28697381e-07 6.30414815e-07 6.32132250e-07 6.33849684e-07 6.35567119e-07 6.37284553e-07 6.39001988e-07 6.40719422e-07 6.42436857e-07 6.44154291e-07 6.45871726e-07 6.47589160e-07 6.49306595e-07 6.51024030e-07 6.53177692e-07 6.55145872e-07 6.57206794e-07 6.59611202e-07 6.61672124e-07 6.64076532e-07 6.66824427e-07 6.69228835e-07 6.71976731e-07 6.74724626e-07 6.77816008e-07 6.80907390e-07 6.83998772e-07 6.87433641e-07 6.90868510e-07 6.94646866e-07 6.98425222e-07 7.02203578e-07 7.06325421e-07 7.10790751e-07 7.15256081e-07 7.19721410e-07 7.24873714e-07 7.29682530e-07 7.35178321e-07 7.40674111e-07 7.46358820e-07 7.52352666e-07 7.58535430e-07 7.65061682e-07 7.71931420e-07 7.78801158e-07 7.86357870e-07 7.93914582e-07 8.01814780e-07 8.10401953e-07 8.18989125e-07 8.28263272e-07 8.38327438e-07 8.47498539e-07 8.57803146e-07 8.68451240e-07 8.79442821e-07 8.91121375e-07 9.03486904e-07 9.17226380e-07 9.31487956e-07 9.43331385e-07 9.57414348e-07 9.72184285e-07 9.87984682e-07 1.00584600e-06 1.02466908e-06 1.03882074e-06 1.05736904e-06 1.07626082e-06 1.09652654e-06 1.11662396e-06 1.13705800e-06 1.15193098e-06 1.18514616e-06 1.20987722e-06 1.22636459e-06 1.24525637e-06 1.27101789e-06"] ""] ""] ""] ""] "".

(** benchmarks/continuous_temperature.xml *)
Definition doc_continuous_temperature : xml :=
  Elem "minimc" [] [
    Elem "general" [] [
      Elem "particles" [] [] "neutron";
      Elem "histories" [] [] "10000000";
      Elem "threads" [] [] "8";
      Elem "chunksize" [] [] "100000";
      Elem "tracking" [] [] "cell delta"] "";
    Elem "nuclides" [] [
      Elem "continuous" [] [
        Elem "nuclide" [("name", "hydrogen in water"); ("awr", "0.99916733")] [
          Elem "neutron" [] [
            Elem "total" [("file", "/Users/atumulak/Developer/minimc/data/endfb8/n-H1_0-total.hdf5"); ("temperature", "623.6")] [] "";
            Elem "capture" [("file", "/Users/atumulak/Developer/minimc/data/endfb8/n-H1_0-gamma.hdf5"); ("temperature", "623.6")] [] "";
            Elem "scatter" [] [
              Elem "xs" [("file", "/Users/atumulak/Developer/minimc/data/endfb8/n-H1_0-elastic.hdf5"); ("temperature", "623.6")] [] "";
              Elem "tsl" [("majorant", "/Users/atumulak/Developer/minimc/data/tsl/endfb8/majorant_endfb8_safety_factor_1.05.hdf5"); ("total_T", "/Users/atumulak/Developer/minimc/data/tsl/endfb8/scatter_xs_endfb8_T_coeffs.hdf5"); ("total_S", "/Users/atumulak/Developer/minimc/data/tsl/endfb8/scatter_xs_endfb8_S_coeffs.hdf5"); ("total_E", "/Users/atumulak/Developer/minimc/data/tsl/endfb8/scatter_xs_endfb8_E_coeffs.hdf5"); ("beta_cutoff", "20.0"); ("alpha_cutoff", "1636.7475317348378")] [
                Elem "beta_partitions" [] [
                  Elem "partition" [("CDF", "/Users/atumulak/Developer/minimc/data/tsl/endfb8/beta_endfb8_0_CDF_coeffs.hdf5"); ("S", "/Users/atumulak/Developer/minimc/data/tsl/endfb8/beta_endfb8_0_S_coeffs.hdf5"); ("E_T", "/Users/atumulak/Developer/minimc/data/tsl/endfb8/beta_endfb8_0_E_T_coeffs.hdf5")] [] "";
                  Elem "partition" [("CDF", "/Users/atumulak/Developer/minimc/data/tsl/endfb8/beta_endfb8_1_CDF_coeffs.hdf5"); ("S", "/Users/atumulak/Developer/minimc/data/tsl/endfb8/beta_endfb8_1_S_coeffs.hdf5"); ("E_T", "/Users/atumulak/Developer/minimc/data/tsl/endfb8/beta_endfb8_1_E_T_coeffs.hdf5")] [] "";
                  Elem "partition" [("CDF", "/Users/atumulak/Developer/minimc/data/tsl/endfb8/beta_endfb8_2_CDF_coeffs.hdf5"); ("S", "/Users/atumulak/Developer/minimc/data/tsl/endfb8/beta_endfb8_2_S_coeffs.hdf5"); ("E_T", "/Users/atumulak/Developer/minimc/data/tsl/endfb8/beta_endfb8_2_E_T_coeffs.hdf5")] [] "";
                  Elem "partition" [("CDF", "/Users/atumulak/Developer/minimc/data/tsl/endfb8/beta_endfb8_3_CDF_coeffs.hdf5"); ("S", "/Users/atumulak/Developer/minimc/data/tsl/endfb8/beta_endfb8_3_S_coeffs.hdf5"); ("E_T", "/Users/atumulak/Developer/minimc/data/tsl/endfb8/beta_endfb8_3_E_T_coeffs.hdf5")] [] ""] "";
                Elem "alpha_partitions" [] [
                  Elem "partition" [("CDF", "/Users/atumulak/Developer/minimc/data/tsl/endfb8/alpha_endfb8_0_CDF_coeffs.hdf5"); ("S", "/Users/atumulak/Developer/minimc/data/tsl/endfb8/alpha_endfb8_0_S_coeffs.hdf5"); ("beta_T", "/Users/atumulak/Developer/minimc/data/tsl/endfb8/alpha_endfb8_0_beta_T_coeffs.hdf5")] [] "";
                  Elem "partition" [("CDF", "/Users/atumulak/Developer/minimc/data/tsl/endfb8/alpha_endfb8_1_CDF_coeffs.hdf5"); ("S", "/Users/atumulak/Developer/minimc/data/tsl/endfb8/alpha_endfb8_1_S_coeffs.hdf5"); ("beta_T", "/Users/atumulak/Developer/minimc/data/tsl/endfb8/alpha_endfb8_1_beta_T_coeffs.hdf5")] [] "";
                  Elem "partition" [("CDF", "/Users/atumulak/Developer/minimc/data/tsl/endfb8/alpha_endfb8_2_CDF_coeffs.hdf5"); ("S", "/Users/atumulak/Developer/minimc/data/tsl/endfb8/alpha_endfb8_2_S_coeffs.hdf5"); ("beta_T", "/Users/atumulak/Developer/minimc/data/tsl/endfb8/alpha_endfb8_2_beta_T_coeffs.hdf5")] [] "";
                  Elem "partition" [("CDF", "/Users/atumulak/Developer/minimc/data/tsl/endfb8/alpha_endfb8_3_CDF_coeffs.hdf5"); ("S", "/Users/atumulak/Developer/minimc/data/tsl/endfb8/alpha_endfb8_3_S_coeffs.hdf5"); ("beta_T", "/Users/atumulak/Developer/minimc/data/tsl/endfb8/alpha_endfb8_3_beta_T_coeffs.hdf5")] [] ""] ""] ""] ""] ""] ""] ""] "";
    Elem "materials" [] [
      Elem "material" [("name", "hydrogen in water"); ("aden", "0.066854")] [
        Elem "nuclide" [("name", "hydrogen in water"); ("afrac", "1")] [] ""] ""] "";
    Elem "surfaces" [] [
      Elem "planex" [("name", "plane-1"); ("x", "-1e-6")] [] "";
      Elem "planex" [("name", "plane-14"); ("x", "4.33")] [] ""] "";
    Elem "cells" [] [
      Elem "void" [] [
        Elem "surface" [("name", "plane-1"); ("sense", "-1")] [] ""] "";
      Elem "cell" [("name", "segment-1"); ("material", "hydrogen in water")] [
        Elem "surface" [("name", "plane-1"); ("sense", "+1")] [] "";
        Elem "surface" [("name", "plane-14"); ("sense", "-1")] [] ""] "";
      Elem "void" [] [
        Elem "surface" [("name", "plane-14"); ("sense", "+1")] [] ""] ""] "";
    Elem "problemtype" [] [
      Elem "fixedsource" [] [
        Elem "position" [] [
          Elem "constant" [("x", "0"); ("y", "0"); ("z", "0")] [] ""] "";
        Elem "direction" [] [
          Elem "constant" [("x", "1"); ("y", "0"); ("z", "0")] [] ""] "";
        Elem "energy" [] [
          Elem "constant" [("energy", "0.56e-6")] [] ""] "";
        Elem "particletype" [] [
          Elem "constant" [("type", "neutron")] [] ""] ""] ""] "";
    Elem "temperature" [] [
      Elem "linear" [] [
        Elem "bounds" [("lower", "300"); ("upper", "600")] [] "";
        Elem "intercept" [("b", "300")] [] "";
        Elem "gradient" [("x", "69.28406467"); ("y", "0"); ("z", "0")] [] ""] ""] "";
    Elem "estimators" [] [
      Elem "current" [("name", "leakage"); ("surface", "plane-14")] [
        Elem "bins" [] [
          Elem "energy" [] [
            Elem "boundaries" [] [] "1.388794e-11 1.474673e-11 1.565861e-11 1.662689e-11 1.765504e-11 1.874676e-11 1.990600e-11 2.113692e-11 2.244395e-11 2.383181e-11 2.530548e-11 2.687029e-11 2.853185e-11 3.029616e-11 3.216957e-11 3.415883e-11 3.627109e-11 3.851397e-11 4.089554e-11 4.342438e-11 4.610960e-11 4.896086e-11 5.198843e-11 5.520321e-11 5.861679e-11 6.224145e-11 6.609024e-11 7.017703e-11 7.451654e-11 7.912438e-11 8.401716e-11 8.921249e-11 9.472909e-11 1.005868e-10 1.068067e-10 1.134113e-10 1.204243e-10 1.278709e-10 1.357780e-10 1.441740e-10 1.530893e-10 1.625558e-10 1.726077e-10 1.832811e-10 1.946146e-10 2.066489e-10 2.194273e-10 2.329960e-10 2.474036e-10 2.627022e-10 2.789468e-10 2.961959e-10 3.145116e-10 3.339600e-10 3.546109e-10 3.765388e-10 3.998227e-10 4.245463e-10 4.507988e-10 4.786746e-10 5.082742e-10 5.397041e-10 5.730776e-10 6.085147e-10 6.461432e-10 6.860984e-10 7.285244e-10 7.735738e-10 8.214090e-10 8.722020e-10 9.261360e-10 9.834051e-10 1.044215e-09 1.108786e-09 1.177350e-09 1.250153e-09 1.327458e-09 1.409543e-09 1.496705e-09 1.589256e-09 1.687530e-09 1.791881e-09 1.902685e-09 2.020340e-09 2.145271e-09 2.277927e-09 2.418786e-09 2.568356e-09 2.727174e-09 2.895813e-09 3.074880e-09 3.265020e-09 3.466917e-09 3.681300e-09 3.908938e-09 4.150654e-09 4.407316e-09 4.679849e-09 4.969235e-09 5.276515e-09 5.602796e-09 5.949254e-09 6.317135e-09 6.707765e-09 7.122550e-09 7.562984e-09 8.030653e-09 8.527241e-09 9.054536e-09 9.614437e-09 1.020896e-08 1.084025e-08 1.151057e-08 1.222234e-08 1.297813e-08 1.378066e-08 1.463280e-08 1.553765e-08 1.649844e-08 1.751865e-08 1.860194e-08 1.975222e-08 2.097363e-08 2.227056e-08 2.364770e-08 2.510999e-08 2.666271e-08 2.831144e-08 3.006212e-08 3.192106e-08 3.389494e-08 3.599089e-08 3.821644e-08 4.057961e-08 4.308892e-08 4.575339e-08 4.858262e-08 5.158680e-08 5.477675e-08 5.816395e-08 6.176061e-08 6.557968e-08 6.963490e-08 7.394088e-08 7.851313e-08 8.336811e-08 8.852330e-08 9.399728e-08 9.980975e-08 1.059816e-07 1.125352e-07 1.194940e-07 1.268831e-07 1.347291e-07 1.430602e-07 1.519066e-07 1.613000e-07 1.712742e-07 1.818652e-07 1.931111e-07 2.050525e-07 2.177322e-07 2.311960e-07 2.454924e-07 2.606728e-07 2.767919e-07 2.939077e-07 3.120820e-07 3.313800e-07 3.518714e-07 3.736299e-07 3.967339e-07 4.212666e-07 4.473162e-07 4.749767e-07 5.043477e-07 5.355348e-07 5.686504e-07 6.038138e-07 6.411515e-07 6.807981e-07 7.228963e-07 7.675977e-07 8.150633e-07 8.654640e-07 9.189814e-07 9.758080e-07 1.036149e-06 1.100220e-06 1.168254e-06 1.240495e-06 1.317203e-06 1.398654e-06 1.485142e-06 1.576978e-06 1.674493e-06 1.778038e-06 1.887986e-06 2.004732e-06 2.128698e-06 2.260329e-06"] ""] ""] ""] ""] "".

(** benchmarks/multi_zone.xml *)
Definition doc_multi_zone : xml :=
  Elem "minimc" [] [
    Elem "general" [] [
      Elem "particles" [] [] "neutron";
      Elem "histories" [] [] "10000000";
      Elem "threads" [] [] "8";
      Elem "chunksize" [] [] "100000";
      Elem "tracking" [] [] "surface"] "";
    Elem "nuclides" [] [
      Elem "continuous" [] [
        Elem "nuclide" [("name", "hydrogen in water"); ("awr", "0.99916733")] [
          Elem "neutron" [] [
            Elem "total" [("file", "/Users/atumulak/Developer/minimc/data/endfb8/n-H1_0-total.hdf5"); ("temperature", "623.6")] [] "";
            Elem "capture" [("file", "/Users/atumulak/Developer/minimc/data/endfb8/n-H1_0-gamma.hdf5"); ("temperature", "623.6")] [] "";
            Elem "scatter" [] [
              Elem "xs" [("file", "/Users/atumulak/Developer/minimc/data/endfb8/n-H1_0-elastic.hdf5"); ("temperature", "623.6")] [] "";
              Elem "tsl" [("majorant", "/Users/atumulak/Developer/minimc/data/tsl/endfb8/majorant_endfb8_safety_factor_1.05.hdf5"); ("total_T", "/Users/atumulak/Developer/minimc/data/tsl/endfb8/scatter_xs_endfb8_T_coeffs.hdf5"); ("total_S", "/Users/atumulak/Developer/minimc/data/tsl/endfb8/scatter_xs_endfb8_S_coeffs.hdf5"); ("total_E", "/Users/atumulak/Developer/minimc/data/tsl/endfb8/scatter_xs_endfb8_E_coeffs.hdf5"); ("beta_cutoff", "20.0"); ("alpha_cutoff", "1636.7475317348378")] [
                Elem "beta_partitions" [] [
                  Elem "partition" [("CDF", "/Users/atumulak/Developer/minimc/data/tsl/endfb8/beta_endfb8_0_CDF_coeffs.hdf5"); ("S", "/Users/atumulak/Developer/minimc/data/tsl/endfb8/beta_endfb8_0_S_coeffs.hdf5"); ("E_T", "/Users/atumulak/Developer/minimc/data/tsl/endfb8/beta_endfb8_0_E_T_coeffs.hdf5")] [] "";
                  Elem "partition" [("CDF", "/Users/atumulak/Developer/minimc/data/tsl/endfb8/beta_endfb8_1_CDF_coeffs.hdf5"); ("S", "/Users/atumulak/Developer/minimc/data/tsl/endfb8/beta_endfb8_1_S_coeffs.hdf5"); ("E_T", "/Users/atumulak/Developer/minimc/data/tsl/endfb8/beta_endfb8_1_E_T_coeffs.hdf5")] [] "";
                  Elem "partition" [("CDF", "/Users/atumulak/Developer/minimc/data/tsl/endfb8/beta_endfb8_2_CDF_coeffs.hdf5"); ("S", "/Users/atumulak/Developer/minimc/data/tsl/endfb8/beta_endfb8_2_S_coeffs.hdf5"); ("E_T", "/Users/atumulak/Developer/minimc/data/tsl/endfb8/beta_endfb8_2_E_T_coeffs.hdf5")] [] "";
                  Elem "partition" [("CDF", "/Users/atumulak/Developer/minimc/data/tsl/endfb8/beta_endfb8_3_CDF_coeffs.hdf5"); ("S", "/Users/atumulak/Developer/minimc/data/tsl/endfb8/beta_endfb8_3_S_coeffs.hdf5"); ("E_T", "/Users/atumulak/Developer/minimc/data/tsl/endfb8/beta_endfb8_3_E_T_coeffs.hdf5")] [] ""] "";
                Elem "alpha_partitions" [] [
                  Elem "partition" [("CDF", "/Users/atumulak/Developer/minimc/data/tsl/endfb8/alpha_endfb8_0_CDF_coeffs.hdf5"); ("S", "/Users/atumulak/Developer/minimc/data/tsl/endfb8/alpha_endfb8_0_S_coeffs.hdf5"); ("beta_T", "/Users/atumulak/Developer/minimc/data/tsl/endfb8/alpha_endfb8_0_beta_T_coeffs.hdf5")] [] "";
                  Elem "partition" [("CDF", "/Users/atumulak/Developer/minimc/data/tsl/endfb8/alpha_endfb8_1_CDF_coeffs.hdf5"); ("S", "/Users/atumulak/Developer/minimc/data/tsl/endfb8/alpha_endfb8_1_S_coeffs.hdf5"); ("beta_T", "/Users/atumulak/Developer/minimc/data/tsl/endfb8/alpha_endfb8_1_beta_T_coeffs.hdf5")] [] "";
                  Elem "partition" [("CDF", "/Users/atumulak/Developer/minimc/data/tsl/endfb8/alpha_endfb8_2_CDF_coeffs.hdf5"); ("S", "/Users/atumulak/Developer/minimc/data/tsl/endfb8/alpha_endfb8_2_S_coeffs.hdf5"); ("beta_T", "/Users/atumulak/Developer/minimc/data/tsl/endfb8/alpha_endfb8_2_beta_T_coeffs.hdf5")] [] "";
                  Elem "partition" [("CDF", "/Users/atumulak/Developer/minimc/data/tsl/endfb8/alpha_endfb8_3_CDF_coeffs.hdf5"); ("S", "/Users/atumulak/Developer/minimc/data/tsl/endfb8/alpha_endfb8_3_S_coeffs.hdf5"); ("beta_T", "/Users/atumulak/Developer/minimc/data/tsl/endfb8/alpha_endfb8_3_beta_T_coeffs.hdf5")] [] ""] ""] ""] ""] ""] ""] ""] "";
    Elem "materials" [] [
      Elem "material" [("name", "hydrogen in water"); ("aden", "0.066854")] [
        Elem "nuclide" [("name", "hydrogen in water"); ("afrac", "1")] [] ""] ""] "";
    Elem "surfaces" [] [
      Elem "planex" [("name", "plane-1"); ("x", "-1e-6")] [] "";
      Elem "planex" [("name", "plane-2"); ("x", "0.33")] [] "";
      Elem "planex" [("name", "plane-3"); ("x", "0.67")] [] "";
      Elem "planex" [("name", "plane-4"); ("x", "1.00")] [] "";
      Elem "planex" [("name", "plane-5"); ("x", "1.33")] [] "";
      Elem "planex" [("name", "plane-6"); ("x", "1.67")] [] "";
      Elem "planex" [("name", "plane-7"); ("x", "2.00")] [] "";
      Elem "planex" [("name", "plane-8"); ("x", "2.33")] [] "";
      Elem "planex" [("name", "plane-9"); ("x", "2.67")] [] "";
      Elem "planex" [("name", "plane-10"); ("x", "3.00")] [] "";
      Elem "planex" [("name", "plane-11"); ("x", "3.33")] [] "";
      Elem "planex" [("name", "plane-12"); ("x", "3.67")] [] "";
      Elem "planex" [("name", "plane-13"); ("x", "4.00")] [] "";
      Elem "planex" [("name", "plane-14"); ("x", "4.33")] [] ""] "";
    Elem "cells" [] [
      Elem "void" [] [
        Elem "surface" [("name", "plane-1"); ("sense", "-1")] [] ""] "";
      Elem "cell" [("name", "segment-1"); ("material", "hydrogen in water"); ("temperature", "300")] [
        Elem "surface" [("name", "plane-1"); ("sense", "+1")] [] "";
        Elem "surface" [("name", "plane-2"); ("sense", "-1")] [] ""] "";
      Elem "cell" [("name", "segment-2"); ("material", "hydrogen in water"); ("temperature", "323.6")] [
        Elem "surface" [("name", "plane-2"); ("sense", "+1")] [] "";
        Elem "surface" [("name", "plane-3"); ("sense", "-1")] [] ""] "";
      Elem "cell" [("name", "segment-3"); ("material", "hydrogen in water"); ("temperature", "350.0")] [
        Elem "surface" [("name", "plane-3"); ("sense", "+1")] [] "";
        Elem "surface" [("name", "plane-4"); ("sense", "-1")] [] ""] "";
      Elem "cell" [("name", "segment-4"); ("material", "hydrogen in water"); ("temperature", "373.6")] [
        Elem "surface" [("name", "plane-4"); ("sense", "+1")] [] "";
        Elem "surface" [("name", "plane-5"); ("sense", "-1")] [] ""] "";
      Elem "cell" [("name", "segment-5"); ("material", "hydrogen in water"); ("temperature", "400.0")] [
        Elem "surface" [("name", "plane-5"); ("sense", "+1")] [] "";
        Elem "surface" [("name", "plane-6"); ("sense", "-1")] [] ""] "";
      Elem "cell" [("name", "segment-6"); ("material", "hydrogen in water"); ("temperature", "423.6")] [
        Elem "surface" [("name", "plane-6"); ("sense", "+1")] [] "";
        Elem "surface" [("name", "plane-7"); ("sense", "-1")] [] ""] "";
      Elem "cell" [("name", "segment-7"); ("material", "hydrogen in water"); ("temperature", "450.0")] [
        Elem "surface" [("name", "plane-7"); ("sense", "+1")] [] "";
        Elem "surface" [("name", "plane-8"); ("sense", "-1")] [] ""] "";
      Elem "cell" [("name", "segment-8"); ("material", "hydrogen in water"); ("temperature", "473.6")] [
        Elem "surface" [("name", "plane-8"); ("sense", "+1")] [] "";
        Elem "surface" [("name", "plane-9"); ("sense", "-1")] [] ""] "";
      Elem "cell" [("name", "segment-9"); ("material", "hydrogen in water"); ("temperature", "500.0")] [
        Elem "surface" [("name", "plane-9"); ("sense", "+1")] [] "";
        Elem "surface" [("name", "plane-10"); ("sense", "-1")] [] ""] "";
      Elem "cell" [("name", "segment-10"); ("material", "hydrogen in water"); ("temperature", "523.6")] [
        Elem "surface" [("name", "plane-10"); ("sense", "+1")] [] "";
        Elem "surface" [("name", "plane-11"); ("sense", "-1")] [] ""] "";
      Elem "cell" [("name", "segment-11"); ("material", "hydrogen in water"); ("temperature", "550.0")] [
        Elem "surface" [("name", "plane-11"); ("sense", "+1")] [] "";
        Elem "surface" [("name", "plane-12"); ("sense", "-1")] [] ""] "";
      Elem "cell" [("name", "segment-12"); ("material", "hydrogen in water"); ("temperature", "573.6")] [
        Elem "surface" [("name", "plane-12"); ("sense", "+1")] [] "";
        Elem "surface" [("name", "plane-13"); ("sense", "-1")] [] ""] "";
      Elem "cell" [("name", "segment-13"); ("material", "hydrogen in water"); ("temperature", "600.0")] [
        Elem "surface" [("name", "plane-13"); ("sense", "+1")] [] "";
        Elem "surface" [("name", "plane-14"); ("sense", "-1")] [] ""] "";
      Elem "void" [] [
        Elem "surface" [("name", "plane-14"); ("sense", "+1")] [] ""] ""] "";
    Elem "problemtype" [] [
      Elem "fixedsource" [] [
        Elem "position" [] [
          Elem "constant" [("x", "0"); ("y", "0"); ("z", "0")] [] ""] "";
        Elem "direction" [] [
          Elem "constant" [("x", "1"); ("y", "0"); ("z", "0")] [] ""] "";
        Elem "energy" [] [
          Elem "constant" [("energy", "0.56e-6")] [] ""] "";
        Elem "particletype" [] [
          Elem "constant" [("type", "neutron")] [] ""] ""] ""] "";
    Elem "estimators" [] [
      Elem "current" [("name", "leakage"); ("surface", "plane-14")] [
        Elem "bins" [] [
          Elem "energy" [] [
            Elem "boundaries" [] [] "1.388794e-11 1.474673e-11 1.565861e-11 1.662689e-11 1.765504e-11 1.874676e-11 1.990600e-11 2.113692e-11 2.244395e-11 2.383181e-11 2.530548e-11 2.687029e-11 2.853185e-11 3.029616e-11 3.216957e-11 3.415883e-11 3.627109e-11 3.851397e-11 4.089554e-11 4.342438e-11 4.610960e-11 4.896086e-11 5.198843e-11 5.520321e-11 5.861679e-11 6.224145e-11 6.609024e-11 7.017703e-11 7.451654e-11 7.912438e-11 8.401716e-11 8.921249e-11 9.472909e-11 1.005868e-10 1.068067e-10 1.134113e-10 1.204243e-10 1.278709e-10 1.357780e-10 1.441740e-10 1.530893e-10 1.625558e-10 1.726077e-10 1.832811e-10 1.946146e-10 2.066489e-10 2.194273e-10 2.329960e-10 2.474036e-10 2.627022e-10 2.789468e-10 2.961959e-10 3.145116e-10 3.339600e-10 3.546109e-10 3.765388e-10 3.998227e-10 4.245463e-10 4.507988e-10 4.786746e-10 5.082742e-10 5.397041e-10 5.730776e-10 6.085147e-10 6.461432e-10 6.860984e-10 7.285244e-10 7.735738e-10 8.214090e-10 8.722020e-10 9.261360e-10 9.834051e-10 1.044215e-09 1.108786e-09 1.177350e-09 1.250153e-09 1.327458e-09 1.409543e-09 1.496705e-09 1.589256e-09 1.687530e-09 1.791881e-09 1.902685e-09 2.020340e-09 2.145271e-09 2.277927e-09 2.418786e-09 2.568356e-09 2.727174e-09 2.895813e-09 3.074880e-09 3.265020e-09 3.466917e-09 3.681300e-09 3.908938e-09 4.150654e-09 4.407316e-09 4.679849e-09 4.969235e-09 5.276515e-09 5.602796e-09 5.949254e-09 6.317135e-09 6.707765e-09 7.122550e-09 7.562984e-09 8.030653e-09 8.527241e-09 9.054536e-09 9.614437e-09 1.020896e-08 1.084025e-08 1.151057e-08 1.222234e-08 1.297813e-08 1.378066e-08 1.463280e-08 1.553765e-08 1.649844e-08 1.751865e-08 1.860194e-08 1.975222e-08 2.097363e-08 2.227056e-08 2.364770e-08 2.510999e-08 2.666271e-08 2.831144e-08 3.006212e-08 3.192106e-08 3.389494e-08 3.599089e-08 3.821644e-08 4.057961e-08 4.308892e-08 4.575339e-08 4.858262e-08 5.158680e-08 5.477675e-08 5.816395e-08 6.176061e-08 6.557968e-08 6.963490e-08 7.394088e-08 7.851313e-08 8.336811e-08 8.852330e-08 9.399728e-08 9.980975e-08 1.059816e-07 1.125352e-07 1.194940e-07 1.268831e-07 1.347291e-07 1.430602e-07 1.519066e-07 1.613000e-07 1.712742e-07 1.818652e-07 1.931111e-07 2.050525e-07 2.177322e-07 2.311960e-07 2.454924e-07 2.606728e-07 2.767919e-07 2.939077e-07 3.120820e-07 3.313800e-07 3.518714e-07 3.736299e-07 3.967339e-07 4.212666e-07 4.473162e-07 4.749767e-07 5.043477e-07 5.355348e-07 5.686504e-07 6.038138e-07 6.411515e-07 6.807981e-07 7.228963e-07 7.675977e-07 8.150633e-07 8.654640e-07 9.189814e-07 9.758080e-07 1.036149e-06 1.100220e-06 1.168254e-06 1.240495e-06 1.317203e-06 1.398654e-06 1.485142e-06 1.576978e-06 1.674493e-06 1.778038e-06 1.887986e-06 2.004732e-06 2.128698e-06 2.260329e-06"] ""] ""] ""] ""] "".

(** benchmarks/single_zone.xml *)
Definition doc_single_zone : xml :=
  Elem "minimc" [] [
    Elem "general" [] [
      Elem "particles" [] [] "neutron";
      Elem "histories" [] [] "1000000";
      Elem "threads" [] [] "8";
      Elem "chunksize" [] [] "10000";
      Elem "tracking" [] [] "surface"] "";
    Elem "nuclides" [] [
      Elem "continuous" [] [
        Elem "nuclide" [("name", "hydrogen in water"); ("awr", "0.99916733")] [
          Elem "neutron" [] [
            Elem "total" [("file", "/Users/atumulak/Developer/minimc/data/endfb8/n-H1_0-total.hdf5"); ("temperature", "293.6")] [] "";
            Elem "capture" [("file", "/Users/atumulak/Developer/minimc/data/endfb8/n-H1_0-gamma.hdf5"); ("temperature", "293.6")] [] "";
            Elem "scatter" [] [
              Elem "xs" [("file", "/Users/atumulak/Developer/minimc/data/endfb8/n-H1_0-elastic.hdf5"); ("temperature", "293.6")] [] "";
              Elem "tsl" [("majorant", "/Users/atumulak/Developer/minimc/data/tsl/endfb8/majorant_endfb8_safety_factor_1.05.hdf5"); ("total_T", "/Users/atumulak/Developer/minimc/data/tsl/endfb8/scatter_xs_endfb8_T_coeffs.hdf5"); ("total_S", "/Users/atumulak/Developer/minimc/data/tsl/endfb8/scatter_xs_endfb8_S_coeffs.hdf5"); ("total_E", "/Users/atumulak/Developer/minimc/data/tsl/endfb8/scatter_xs_endfb8_E_coeffs.hdf5"); ("beta_cutoff", "20.0"); ("alpha_cutoff", "1636.7475317348378")] [
                Elem "beta_partitions" [] [
                  Elem "partition" [("CDF", "/Users/atumulak/Developer/minimc/data/tsl/endfb8/beta_endfb8_0_CDF_coeffs.hdf5"); ("S", "/Users/atumulak/Developer/minimc/data/tsl/endfb8/beta_endfb8_0_S_coeffs.hdf5"); ("E_T", "/Users/atumulak/Developer/minimc/data/tsl/endfb8/beta_endfb8_0_E_T_coeffs.hdf5")] [] "";
                  Elem "partition" [("CDF", "/Users/atumulak/Developer/minimc/data/tsl/endfb8/beta_endfb8_1_CDF_coeffs.hdf5"); ("S", "/Users/atumulak/Developer/minimc/data/tsl/endfb8/beta_endfb8_1_S_coeffs.hdf5"); ("E_T", "/Users/atumulak/Developer/minimc/data/tsl/endfb8/beta_endfb8_1_E_T_coeffs.hdf5")] [] "";
                  Elem "partition" [("CDF", "/Users/atumulak/Developer/minimc/data/tsl/endfb8/beta_endfb8_2_CDF_coeffs.hdf5"); ("S", "/Users/atumulak/Developer/minimc/data/tsl/endfb8/beta_endfb8_2_S_coeffs.hdf5"); ("E_T", "/Users/atumulak/Developer/minimc/data/tsl/endfb8/beta_endfb8_2_E_T_coeffs.hdf5")] [] "";
                  Elem "partition" [("CDF", "/Users/atumulak/Developer/minimc/data/tsl/endfb8/beta_endfb8_3_CDF_coeffs.hdf5"); ("S", "/Users/atumulak/Developer/minimc/data/tsl/endfb8/beta_endfb8_3_S_coeffs.hdf5"); ("E_T", "/Users/atumulak/Developer/minimc/data/tsl/endfb8/beta_endfb8_3_E_T_coeffs.hdf5")] [] ""] "";
                Elem "alpha_partitions" [] [
                  Elem "partition" [("CDF", "/Users/atumulak/Developer/minimc/data/tsl/endfb8/alpha_endfb8_0_CDF_coeffs.hdf5"); ("S", "/Users/atumulak/Developer/minimc/data/tsl/endfb8/alpha_endfb8_0_S_coeffs.hdf5"); ("beta_T", "/Users/atumulak/Developer/minimc/data/tsl/endfb8/alpha_endfb8_0_beta_T_coeffs.hdf5")] [] "";
                  Elem "partition" [("CDF", "/Users/atumulak/Developer/minimc/data/tsl/endfb8/alpha_endfb8_1_CDF_coeffs.hdf5"); ("S", "/Users/atumulak/Developer/minimc/data/tsl/endfb8/alpha_endfb8_1_S_coeffs.hdf5"); ("beta_T", "/Users/atumulak/Developer/minimc/data/tsl/endfb8/alpha_endfb8_1_beta_T_coeffs.hdf5")] [] "";
                  Elem "partition" [("CDF", "/Users/atumulak/Developer/minimc/data/tsl/endfb8/alpha_endfb8_2_CDF_coeffs.hdf5"); ("S", "/Users/atumulak/Developer/minimc/data/tsl/endfb8/alpha_endfb8_2_S_coeffs.hdf5"); ("beta_T", "/Users/atumulak/Developer/minimc/data/tsl/endfb8/alpha_endfb8_2_beta_T_coeffs.hdf5")] [] "";
                  Elem "partition" [("CDF", "/Users/atumulak/Developer/minimc/data/tsl/endfb8/alpha_endfb8_3_CDF_coeffs.hdf5"); ("S", "/Users/atumulak/Developer/minimc/data/tsl/endfb8/alpha_endfb8_3_S_coeffs.hdf5"); ("beta_T", "/Users/atumulak/Developer/minimc/data/tsl/endfb8/alpha_endfb8_3_beta_T_coeffs.hdf5")] [] ""] ""] ""] ""] ""] ""] ""] "";
    Elem "materials" [] [
      Elem "material" [("name", "hydrogen in water"); ("aden", "0.066854")] [
        Elem "nuclide" [("name", "hydrogen in water"); ("afrac", "1")] [] ""] ""] "";
    Elem "surfaces" [] [
      Elem "planex" [("name", "left-plane"); ("x", "-1e-6")] [] "";
      Elem "planex" [("name", "right-plane"); ("x", "5.0")] [] ""] "";
    Elem "cells" [] [
      Elem "void" [] [
        Elem "surface" [("name", "left-plane"); ("sense", "-1")] [] ""] "";
      Elem "cell" [("name", "segment"); ("material", "hydrogen in water")] [
        Elem "surface" [("name", "left-plane"); ("sense", "+1")] [] "";
        Elem "surface" [("name", "right-plane"); ("sense", "-1")] [] ""] "";
      Elem "void" [] [
        Elem "surface" [("name", "right-plane"); ("sense", "+1")] [] ""] ""] "";
    Elem "problemtype" [] [
      Elem "fixedsource" [] [
        Elem "position" [] [
          Elem "constant" [("x", "0"); ("y", "0"); ("z", "0")] [] ""] "";
        Elem "direction" [] [
          Elem "constant" [("x", "1"); ("y", "0"); ("z", "0")] [] ""] "";
        Elem "energy" [] [
          Elem "constant" [("energy", "0.56e-6")] [] ""] "";
        Elem "particletype" [] [
          Elem "constant" [("type", "neutron")] [] ""] ""] ""] "";
    Elem "temperature" [] [
      Elem "constant" [("c", "450.0")] [] ""] "";
    Elem "estimators" [] [
      Elem "current" [("name", "leakage"); ("surface", "right-plane")] [
        Elem "bins" [] [
          Elem "cosine" [("u", "1.0"); ("v", "0.0"); ("w", "0.0")] [
            Elem "linspace" [("min", "0"); ("max", "1.01"); ("bins", "101")] [] ""] "";
          Elem "energy" [] [
            Elem "linspace" [("min", "1e-11"); ("max", "0.8e-6"); ("bins", "99")] [] ""] ""] ""] ""] ""] "".
