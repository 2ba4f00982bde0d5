(** The documents of tools/docs, written by tools/mkdocs.py. *)
From Coq Require Import String List.
From Verif Require Import Model.Xml.
Import ListNotations.
Local Open Scope string_scope.

(** docs/address_nuclides.xml *)
Definition doc_address_nuclides : xml :=
  Elem "minimc" [] [
    Elem "general" [] [
      Elem "particles" [] [] "neutron";
      Elem "histories" [] [] "1";
      Elem "threads" [] [] "1";
      Elem "chunksize" [] [] "1";
      Elem "seed" [] [] "5"] "";
    Elem "nuclides" [] [
      Elem "multigroup" [("groups", "1")] [
        Elem "nuclide" [("name", "black")] [
          Elem "neutron" [] [
            Elem "capture" [] [] "1"] ""] "";
        Elem "nuclide" [("name", "white")] [
          Elem "neutron" [] [
            Elem "scatter" [] [] "1"] ""] ""] ""] "";
    Elem "materials" [] [
      Elem "material" [("name", "grey"); ("aden", "1")] [
        Elem "nuclide" [("name", "black"); ("afrac", "1")] [] "";
        Elem "nuclide" [("name", "white"); ("afrac", "1")] [] ""] ""] "";
    Elem "surfaces" [] [
      Elem "planex" [("name", "left"); ("x", "0")] [] "";
      Elem "planex" [("name", "right"); ("x", "20")] [] ""] "";
    Elem "cells" [] [
      Elem "cell" [("name", "slab"); ("material", "grey")] [
        Elem "surface" [("name", "left"); ("sense", "+1")] [] "";
        Elem "surface" [("name", "right"); ("sense", "-1")] [] ""] "";
      Elem "void" [] [
        Elem "surface" [("name", "left"); ("sense", "-1")] [] ""] "";
      Elem "void" [] [
        Elem "surface" [("name", "right"); ("sense", "+1")] [] ""] ""] "";
    Elem "problemtype" [] [
      Elem "fixedsource" [] [
        Elem "position" [] [
          Elem "constant" [("x", "0.25"); ("y", "0"); ("z", "0")] [] ""] "";
        Elem "direction" [] [
          Elem "constant" [("x", "1"); ("y", "0"); ("z", "0")] [] ""] "";
        Elem "energy" [] [
          Elem "constant" [("energy", "1")] [] ""] "";
        Elem "particletype" [] [
          Elem "constant" [("type", "neutron")] [] ""] ""] ""] "";
    Elem "estimators" [] [
      Elem "current" [("name", "leakage"); ("surface", "left")] [] ""] ""] "".

(** docs/address_surfaces.xml *)
Definition doc_address_surfaces : xml :=
  Elem "minimc" [] [
    Elem "general" [] [
      Elem "particles" [] [] "neutron";
      Elem "histories" [] [] "1";
      Elem "threads" [] [] "1";
      Elem "chunksize" [] [] "1"] "";
    Elem "nuclides" [] [
      Elem "multigroup" [("groups", "1")] [
        Elem "nuclide" [("name", "absorber")] [
          Elem "neutron" [] [
            Elem "capture" [] [] "1"] ""] ""] ""] "";
    Elem "materials" [] [
      Elem "material" [("name", "thin"); ("aden", "0.000001")] [
        Elem "nuclide" [("name", "absorber"); ("afrac", "1")] [] ""] ""] "";
    Elem "surfaces" [] [
      Elem "planex" [("name", "left"); ("x", "0")] [] "";
      Elem "planex" [("name", "wall"); ("x", "1")] [] "";
      Elem "sphere" [("name", "ball")] [
        Elem "center" [("x", "0"); ("y", "0"); ("z", "0")] [] "";
        Elem "radius" [("r", "1")] [] ""] ""] "";
    Elem "cells" [] [
      Elem "cell" [("name", "inside"); ("material", "thin")] [
        Elem "surface" [("name", "left"); ("sense", "+1")] [] "";
        Elem "surface" [("name", "ball"); ("sense", "-1")] [] "";
        Elem "surface" [("name", "wall"); ("sense", "-1")] [] ""] "";
      Elem "void" [] [
        Elem "surface" [("name", "left"); ("sense", "-1")] [] ""] "";
      Elem "void" [] [
        Elem "surface" [("name", "left"); ("sense", "+1")] [] "";
        Elem "surface" [("name", "ball"); ("sense", "+1")] [] ""] ""] "";
    Elem "problemtype" [] [
      Elem "fixedsource" [] [
        Elem "position" [] [
          Elem "constant" [("x", "0.5"); ("y", "0"); ("z", "0")] [] ""] "";
        Elem "direction" [] [
          Elem "constant" [("x", "1"); ("y", "0"); ("z", "0")] [] ""] "";
        Elem "energy" [] [
          Elem "constant" [("energy", "1")] [] ""] "";
        Elem "particletype" [] [
          Elem "constant" [("type", "neutron")] [] ""] ""] ""] "";
    Elem "estimators" [] [
      Elem "current" [("name", "at the wall"); ("surface", "wall")] [] "";
      Elem "current" [("name", "at the ball"); ("surface", "ball")] [] ""] ""] "".

(** docs/plane_missed.xml *)
Definition doc_plane_missed : xml :=
  Elem "minimc" [] [
    Elem "general" [] [
      Elem "particles" [] [] "neutron";
      Elem "histories" [] [] "4";
      Elem "threads" [] [] "1";
      Elem "chunksize" [] [] "1"] "";
    Elem "nuclides" [] [
      Elem "multigroup" [("groups", "1")] [
        Elem "nuclide" [("name", "absorber")] [
          Elem "neutron" [] [
            Elem "capture" [] [] "1"] ""] ""] ""] "";
    Elem "materials" [] [
      Elem "material" [("name", "thin"); ("aden", "0.000001")] [
        Elem "nuclide" [("name", "absorber"); ("afrac", "1")] [] ""] ""] "";
    Elem "surfaces" [] [
      Elem "planex" [("name", "left"); ("x", "0")] [] "";
      Elem "planex" [("name", "middle"); ("x", "20")] [] "";
      Elem "planex" [("name", "right"); ("x", "30")] [] ""] "";
    Elem "cells" [] [
      Elem "cell" [("name", "left slab"); ("material", "thin")] [
        Elem "surface" [("name", "left"); ("sense", "+1")] [] "";
        Elem "surface" [("name", "middle"); ("sense", "-1")] [] ""] "";
      Elem "cell" [("name", "right slab"); ("material", "thin")] [
        Elem "surface" [("name", "middle"); ("sense", "+1")] [] "";
        Elem "surface" [("name", "right"); ("sense", "-1")] [] ""] "";
      Elem "void" [] [
        Elem "surface" [("name", "left"); ("sense", "-1")] [] ""] "";
      Elem "void" [] [
        Elem "surface" [("name", "right"); ("sense", "+1")] [] ""] ""] "";
    Elem "problemtype" [] [
      Elem "fixedsource" [] [
        Elem "position" [] [
          Elem "constant" [("x", "24"); ("y", "0"); ("z", "0")] [] ""] "";
        Elem "direction" [] [
          Elem "constant" [("x", "-1"); ("y", "0"); ("z", "0")] [] ""] "";
        Elem "energy" [] [
          Elem "constant" [("energy", "1")] [] ""] "";
        Elem "particletype" [] [
          Elem "constant" [("type", "neutron")] [] ""] ""] ""] "";
    Elem "estimators" [] [
      Elem "current" [("name", "at the left plane"); ("surface", "left")] [] "";
      Elem "current" [("name", "at the middle plane"); ("surface", "middle")] [] "";
      Elem "current" [("name", "at the right plane"); ("surface", "right")] [] ""] ""] "".

(** docs/plane_small.xml *)
Definition doc_plane_small : xml :=
  Elem "minimc" [] [
    Elem "general" [] [
      Elem "particles" [] [] "neutron";
      Elem "histories" [] [] "4";
      Elem "threads" [] [] "1";
      Elem "chunksize" [] [] "1"] "";
    Elem "nuclides" [] [
      Elem "multigroup" [("groups", "1")] [
        Elem "nuclide" [("name", "absorber")] [
          Elem "neutron" [] [
            Elem "capture" [] [] "1"] ""] ""] ""] "";
    Elem "materials" [] [
      Elem "material" [("name", "thin"); ("aden", "0.000001")] [
        Elem "nuclide" [("name", "absorber"); ("afrac", "1")] [] ""] ""] "";
    Elem "surfaces" [] [
      Elem "planex" [("name", "left"); ("x", "0")] [] "";
      Elem "planex" [("name", "middle"); ("x", "1")] [] "";
      Elem "planex" [("name", "right"); ("x", "2")] [] ""] "";
    Elem "cells" [] [
      Elem "cell" [("name", "left slab"); ("material", "thin")] [
        Elem "surface" [("name", "left"); ("sense", "+1")] [] "";
        Elem "surface" [("name", "middle"); ("sense", "-1")] [] ""] "";
      Elem "cell" [("name", "right slab"); ("material", "thin")] [
        Elem "surface" [("name", "middle"); ("sense", "+1")] [] "";
        Elem "surface" [("name", "right"); ("sense", "-1")] [] ""] "";
      Elem "void" [] [
        Elem "surface" [("name", "left"); ("sense", "-1")] [] ""] "";
      Elem "void" [] [
        Elem "surface" [("name", "right"); ("sense", "+1")] [] ""] ""] "";
    Elem "problemtype" [] [
      Elem "fixedsource" [] [
        Elem "position" [] [
          Elem "constant" [("x", "1.5"); ("y", "0"); ("z", "0")] [] ""] "";
        Elem "direction" [] [
          Elem "constant" [("x", "-1"); ("y", "0"); ("z", "0")] [] ""] "";
        Elem "energy" [] [
          Elem "constant" [("energy", "1")] [] ""] "";
        Elem "particletype" [] [
          Elem "constant" [("type", "neutron")] [] ""] ""] ""] "";
    Elem "estimators" [] [
      Elem "current" [("name", "at the left plane"); ("surface", "left")] [] "";
      Elem "current" [("name", "at the middle plane"); ("surface", "middle")] [] "";
      Elem "current" [("name", "at the right plane"); ("surface", "right")] [] ""] ""] "".

(** docs/plane_twice.xml *)
Definition doc_plane_twice : xml :=
  Elem "minimc" [] [
    Elem "general" [] [
      Elem "particles" [] [] "neutron";
      Elem "histories" [] [] "4";
      Elem "threads" [] [] "1";
      Elem "chunksize" [] [] "1"] "";
    Elem "nuclides" [] [
      Elem "multigroup" [("groups", "1")] [
        Elem "nuclide" [("name", "absorber")] [
          Elem "neutron" [] [
            Elem "capture" [] [] "1"] ""] ""] ""] "";
    Elem "materials" [] [
      Elem "material" [("name", "thin"); ("aden", "0.000001")] [
        Elem "nuclide" [("name", "absorber"); ("afrac", "1")] [] ""] ""] "";
    Elem "surfaces" [] [
      Elem "planex" [("name", "left"); ("x", "0")] [] "";
      Elem "planex" [("name", "middle"); ("x", "100")] [] "";
      Elem "planex" [("name", "right"); ("x", "200")] [] ""] "";
    Elem "cells" [] [
      Elem "cell" [("name", "left slab"); ("material", "thin")] [
        Elem "surface" [("name", "left"); ("sense", "+1")] [] "";
        Elem "surface" [("name", "middle"); ("sense", "-1")] [] ""] "";
      Elem "cell" [("name", "right slab"); ("material", "thin")] [
        Elem "surface" [("name", "middle"); ("sense", "+1")] [] "";
        Elem "surface" [("name", "right"); ("sense", "-1")] [] ""] "";
      Elem "void" [] [
        Elem "surface" [("name", "left"); ("sense", "-1")] [] ""] "";
      Elem "void" [] [
        Elem "surface" [("name", "right"); ("sense", "+1")] [] ""] ""] "";
    Elem "problemtype" [] [
      Elem "fixedsource" [] [
        Elem "position" [] [
          Elem "constant" [("x", "3"); ("y", "0"); ("z", "0")] [] ""] "";
        Elem "direction" [] [
          Elem "constant" [("x", "1"); ("y", "1"); ("z", "0")] [] ""] "";
        Elem "energy" [] [
          Elem "constant" [("energy", "1")] [] ""] "";
        Elem "particletype" [] [
          Elem "constant" [("type", "neutron")] [] ""] ""] ""] "";
    Elem "estimators" [] [
      Elem "current" [("name", "at the left plane"); ("surface", "left")] [] "";
      Elem "current" [("name", "at the middle plane"); ("surface", "middle")] [] "";
      Elem "current" [("name", "at the right plane"); ("surface", "right")] [] ""] ""] "".

(** docs/sphere_small.xml *)
Definition doc_sphere_small : xml :=
  Elem "minimc" [] [
    Elem "general" [] [
      Elem "particles" [] [] "neutron";
      Elem "histories" [] [] "4";
      Elem "threads" [] [] "1";
      Elem "chunksize" [] [] "1"] "";
    Elem "nuclides" [] [
      Elem "multigroup" [("groups", "1")] [
        Elem "nuclide" [("name", "absorber")] [
          Elem "neutron" [] [
            Elem "capture" [] [] "1"] ""] ""] ""] "";
    Elem "materials" [] [
      Elem "material" [("name", "black"); ("aden", "100")] [
        Elem "nuclide" [("name", "absorber"); ("afrac", "1")] [] ""] "";
      Elem "material" [("name", "thin"); ("aden", "0.000001")] [
        Elem "nuclide" [("name", "absorber"); ("afrac", "1")] [] ""] ""] "";
    Elem "surfaces" [] [
      Elem "sphere" [("name", "inner")] [
        Elem "center" [("x", "0"); ("y", "0"); ("z", "0")] [] "";
        Elem "radius" [("r", "1")] [] ""] "";
      Elem "sphere" [("name", "outer")] [
        Elem "center" [("x", "0"); ("y", "0"); ("z", "0")] [] "";
        Elem "radius" [("r", "5")] [] ""] ""] "";
    Elem "cells" [] [
      Elem "cell" [("name", "core"); ("material", "black")] [
        Elem "surface" [("name", "inner"); ("sense", "-1")] [] ""] "";
      Elem "cell" [("name", "shell"); ("material", "thin")] [
        Elem "surface" [("name", "inner"); ("sense", "+1")] [] "";
        Elem "surface" [("name", "outer"); ("sense", "-1")] [] ""] "";
      Elem "void" [] [
        Elem "surface" [("name", "outer"); ("sense", "+1")] [] ""] ""] "";
    Elem "problemtype" [] [
      Elem "fixedsource" [] [
        Elem "position" [] [
          Elem "constant" [("x", "1.25"); ("y", "0"); ("z", "0")] [] ""] "";
        Elem "direction" [] [
          Elem "constant" [("x", "-1"); ("y", "0"); ("z", "0")] [] ""] "";
        Elem "energy" [] [
          Elem "constant" [("energy", "1")] [] ""] "";
        Elem "particletype" [] [
          Elem "constant" [("type", "neutron")] [] ""] ""] ""] "";
    Elem "estimators" [] [
      Elem "current" [("name", "into the core"); ("surface", "inner")] [] "";
      Elem "current" [("name", "leakage"); ("surface", "outer")] [] ""] ""] "".

(** docs/sphere_through.xml *)
Definition doc_sphere_through : xml :=
  Elem "minimc" [] [
    Elem "general" [] [
      Elem "particles" [] [] "neutron";
      Elem "histories" [] [] "4";
      Elem "threads" [] [] "1";
      Elem "chunksize" [] [] "1"] "";
    Elem "nuclides" [] [
      Elem "multigroup" [("groups", "1")] [
        Elem "nuclide" [("name", "absorber")] [
          Elem "neutron" [] [
            Elem "capture" [] [] "1"] ""] ""] ""] "";
    Elem "materials" [] [
      Elem "material" [("name", "black"); ("aden", "100")] [
        Elem "nuclide" [("name", "absorber"); ("afrac", "1")] [] ""] "";
      Elem "material" [("name", "thin"); ("aden", "0.000001")] [
        Elem "nuclide" [("name", "absorber"); ("afrac", "1")] [] ""] ""] "";
    Elem "surfaces" [] [
      Elem "sphere" [("name", "inner")] [
        Elem "center" [("x", "0"); ("y", "0"); ("z", "0")] [] "";
        Elem "radius" [("r", "20")] [] ""] "";
      Elem "sphere" [("name", "outer")] [
        Elem "center" [("x", "0"); ("y", "0"); ("z", "0")] [] "";
        Elem "radius" [("r", "100")] [] ""] ""] "";
    Elem "cells" [] [
      Elem "cell" [("name", "core"); ("material", "black")] [
        Elem "surface" [("name", "inner"); ("sense", "-1")] [] ""] "";
      Elem "cell" [("name", "shell"); ("material", "thin")] [
        Elem "surface" [("name", "inner"); ("sense", "+1")] [] "";
        Elem "surface" [("name", "outer"); ("sense", "-1")] [] ""] "";
      Elem "void" [] [
        Elem "surface" [("name", "outer"); ("sense", "+1")] [] ""] ""] "";
    Elem "problemtype" [] [
      Elem "fixedsource" [] [
        Elem "position" [] [
          Elem "constant" [("x", "24"); ("y", "0"); ("z", "0")] [] ""] "";
        Elem "direction" [] [
          Elem "constant" [("x", "-1"); ("y", "0"); ("z", "0")] [] ""] "";
        Elem "energy" [] [
          Elem "constant" [("energy", "1")] [] ""] "";
        Elem "particletype" [] [
          Elem "constant" [("type", "neutron")] [] ""] ""] ""] "";
    Elem "estimators" [] [
      Elem "current" [("name", "into the core"); ("surface", "inner")] [] "";
      Elem "current" [("name", "leakage"); ("surface", "outer")] [] ""] ""] "".

(** docs/sphere_twice.xml *)
Definition doc_sphere_twice : xml :=
  Elem "minimc" [] [
    Elem "general" [] [
      Elem "particles" [] [] "neutron";
      Elem "histories" [] [] "4";
      Elem "threads" [] [] "1";
      Elem "chunksize" [] [] "1"] "";
    Elem "nuclides" [] [
      Elem "multigroup" [("groups", "1")] [
        Elem "nuclide" [("name", "absorber")] [
          Elem "neutron" [] [
            Elem "capture" [] [] "1"] ""] ""] ""] "";
    Elem "materials" [] [
      Elem "material" [("name", "thin"); ("aden", "0.000001")] [
        Elem "nuclide" [("name", "absorber"); ("afrac", "1")] [] ""] ""] "";
    Elem "surfaces" [] [
      Elem "sphere" [("name", "sphere")] [
        Elem "center" [("x", "0"); ("y", "0"); ("z", "0")] [] "";
        Elem "radius" [("r", "40")] [] ""] ""] "";
    Elem "cells" [] [
      Elem "cell" [("name", "ball"); ("material", "thin")] [
        Elem "surface" [("name", "sphere"); ("sense", "-1")] [] ""] "";
      Elem "void" [] [
        Elem "surface" [("name", "sphere"); ("sense", "+1")] [] ""] ""] "";
    Elem "problemtype" [] [
      Elem "fixedsource" [] [
        Elem "position" [] [
          Elem "constant" [("x", "0"); ("y", "0"); ("z", "0")] [] ""] "";
        Elem "direction" [] [
          Elem "constant" [("x", "0"); ("y", "1"); ("z", "1")] [] ""] "";
        Elem "energy" [] [
          Elem "constant" [("energy", "1")] [] ""] "";
        Elem "particletype" [] [
          Elem "constant" [("type", "neutron")] [] ""] ""] ""] "";
    Elem "estimators" [] [
      Elem "current" [("name", "leakage"); ("surface", "sphere")] [] ""] ""] "".
