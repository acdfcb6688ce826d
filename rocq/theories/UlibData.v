(** The library of units that comes with the code: openmdao/units/unit_library.ini (lines 1-220),
    its three sections written out in the order of the file.  Literals are the decimal
    numbers of the file; pi is the floating point number math.pi. *)
From Verif Require Import Base UnitsModel UlibModel.
Local Open Scope Z_scope.
Local Open Scope Q_scope.
Local Open Scope string_scope.
Local Open Scope list_scope.

Definition float_pi : Q := (884279719003555 # 281474976710656).
Definition shipped_prefixes : list (string * Q) :=
  [("Y", 1000000000000000000000000);
   ("Z", 1000000000000000000000);
   ("E", 1000000000000000000);
   ("P", 1000000000000000);
   ("T", 1000000000000);
   ("G", 1000000000);
   ("M", 1000000);
   ("k", 1000);
   ("h", 100);
   ("da", 10);
   ("d", (1 # 10));
   ("c", (1 # 100));
   ("m", (1 # 1000));
   ("u", (1 # 1000000));
   ("n", (1 # 1000000000));
   ("p", (1 # 1000000000000));
   ("f", (1 # 1000000000000000));
   ("a", (1 # 1000000000000000000));
   ("z", (1 # 1000000000000000000000));
   ("y", (1 # 1000000000000000000000000));
   ("Ei", 1152921504606846976);
   ("Pi", 1125899906842624);
   ("Ti", 1099511627776);
   ("Gi", 1073741824);
   ("Mi", 1048576);
   ("Ki", 1024)].
Definition shipped_base : list (string * string) :=
  [("length", "m"); ("mass", "kg"); ("time", "s"); ("current", "A"); ("temperature", "K"); ("amount", "mol"); ("luminous_intensity", "cd"); ("angle", "rad"); ("solid_angle", "sr"); ("money", "USD"); ("passengers", "pax"); ("digital_data", "byte")].
Definition shipped_units : list udef :=
  [DExpr "g" (UDiv (UName "kg") (UNum 1000));
   DExpr "Hz" (UDiv (UNum 1) (UName "s"));
   DExpr "N" (UDiv (UMul (UName "m") (UName "kg")) (UPow (UName "s") 2));
   DExpr "Pa" (UDiv (UName "N") (UPow (UName "m") 2));
   DExpr "J" (UMul (UName "N") (UName "m"));
   DExpr "W" (UDiv (UName "J") (UName "s"));
   DExpr "C" (UMul (UName "A") (UName "s"));
   DExpr "V" (UDiv (UName "W") (UName "A"));
   DExpr "F" (UDiv (UName "C") (UName "V"));
   DExpr "ohm" (UDiv (UName "V") (UName "A"));
   DExpr "S" (UDiv (UName "A") (UName "V"));
   DExpr "Wb" (UMul (UName "V") (UName "s"));
   DExpr "T" (UDiv (UName "Wb") (UPow (UName "m") 2));
   DExpr "H" (UDiv (UName "Wb") (UName "A"));
   DOffset "degC" (UName "K") 1 (5463 # 20);
   DExpr "lm" (UMul (UName "cd") (UName "sr"));
   DExpr "lx" (UDiv (UName "lm") (UPow (UName "m") 2));
   DExpr "Bq" (UDiv (UNum 1) (UName "s"));
   DExpr "Gy" (UDiv (UName "J") (UName "kg"));
   DExpr "Sv" (UDiv (UName "J") (UName "kg"));
   DExpr "kat" (UDiv (UName "mol") (UName "s"));
   DExpr "min" (UMul (UNum 60) (UName "s"));
   DExpr "h" (UMul (UNum 3600) (UName "s"));
   DExpr "d" (UMul (UNum 86400) (UName "s"));
   DExpr "deg" (UMul (UDiv (UNum float_pi) (UNum 180)) (UName "rad"));
   DExpr "arc_minute" (UDiv (UName "deg") (UNum 60));
   DExpr "arc_second" (UDiv (UName "arc_minute") (UNum 60));
   DExpr "ha" (UMul (UNum 10000) (UPow (UName "m") 2));
   DExpr "L" (UMul (UNum (1 # 1000)) (UPow (UName "m") 3));
   DExpr "t" (UMul (UNum 1000) (UName "kg"));
   DExpr "e" (UMul (UNum (160217653 # 1000000000000000000000000000)) (UName "C"));
   DExpr "eV" (UMul (UName "e") (UName "V"));
   DExpr "Da" (UMul (UNum (83026943 # 50000000000000000000000000000000000)) (UName "kg"));
   DExpr "u" (UName "Da");
   DExpr "ua" (UMul (UNum 149597870691) (UName "m"));
   DExpr "c0" (UDiv (UMul (UNum 299792458) (UName "m")) (UName "s"));
   DExpr "hbar" (UMul (UMul (UNum (6591073 # 62500000000000000000000000000000000000000)) (UName "J")) (UName "s"));
   DExpr "me" (UMul (UNum (45546913 # 50000000000000000000000000000000000000)) (UName "kg"));
   DExpr "a0" (UMul (UNum (1322943027 # 25000000000000000000)) (UName "m"));
   DExpr "Eh" (UMul (UNum (435974417 # 100000000000000000000000000)) (UName "J"));
   DExpr "bar" (UMul (UNum 100000) (UName "Pa"));
   DExpr "Ang" (UMul (UNum (1 # 10000000000)) (UName "m"));
   DExpr "NM" (UMul (UNum 1852) (UName "m"));
   DExpr "b" (UMul (UNum (1 # 10000000000000000000000000000)) (UPow (UName "m") 2));
   DExpr "kn" (UDiv (UName "NM") (UName "h"));
   DExpr "erg" (UMul (UNum (1 # 10000000)) (UName "J"));
   DExpr "dyn" (UMul (UNum (1 # 100000)) (UName "N"));
   DExpr "P" (UMul (UMul (UNum (1 # 10)) (UName "Pa")) (UName "s"));
   DExpr "St" (UDiv (UMul (UNum (1 # 10000)) (UPow (UName "m") 2)) (UName "s"));
   DExpr "sb" (UDiv (UMul (UNum 10000) (UName "cd")) (UPow (UName "m") 2));
   DExpr "ph" (UMul (UNum 10000) (UName "lx"));
   DExpr "Mx" (UMul (UNum (1 # 100000000)) (UName "Wb"));
   DExpr "gauss" (UMul (UNum (1 # 10000)) (UName "T"));
   DExpr "Oe" (UDiv (UMul (UDiv (UNum 1000) (UMul (UNum 4) (UNum float_pi))) (UName "A")) (UName "m"));
   DExpr "degK" (UName "K");
   DExpr "nmi" (UName "NM");
   DExpr "knot" (UName "kn");
   DExpr "inch" (UMul (UNum (127 # 5000)) (UName "m"));
   DExpr "ft" (UMul (UNum (381 # 1250)) (UName "m"));
   DExpr "mi" (UMul (UNum (201168 # 125)) (UName "m"));
   DExpr "ly" (UMul (UNum 9460730000000000) (UName "m"));
   DExpr "oz" (UMul (UNum (45359237 # 1600000)) (UName "g"));
   DExpr "lb" (UMul (UNum 16) (UName "oz"));
   DExpr "lbm" (UName "lb");
   DExpr "ton" (UMul (UNum 2000) (UName "lb"));
   DExpr "slug" (UMul (UNum (145939029 # 10000000)) (UName "kg"));
   DExpr "wk" (UMul (UNum 7) (UName "d"));
   DExpr "week" (UMul (UNum 7) (UName "d"));
   DExpr "a" (UMul (UNum (365242199 # 1000000)) (UName "d"));
   DExpr "yr" (UName "a");
   DExpr "year" (UName "a");
   DExpr "mo" (UDiv (UName "yr") (UNum 12));
   DExpr "month" (UDiv (UName "yr") (UNum 12));
   DExpr "degR" (UDiv (UMul (UName "K") (UNum 5)) (UNum 9));
   DOffset "degF" (UName "degR") 1 (45967 # 100);
   DExpr "tsp" (UMul (UNum (157725491 # 32000000000)) (UName "L"));
   DExpr "tbsp" (UMul (UNum 3) (UName "tsp"));
   DExpr "floz" (UMul (UNum 2) (UName "tbsp"));
   DExpr "cup" (UMul (UNum 8) (UName "floz"));
   DExpr "pt" (UMul (UNum 16) (UName "floz"));
   DExpr "qt" (UMul (UNum 2) (UName "pt"));
   DExpr "galUS" (UMul (UNum (3785411 # 1000000)) (UName "L"));
   DExpr "galUK" (UMul (UNum (454609 # 100000)) (UName "L"));
   DExpr "lbf" (UMul (UNum (222411081 # 50000000)) (UName "N"));
   DExpr "rev" (UMul (UMul (UNum 2) (UNum float_pi)) (UName "rad"));
   DExpr "rpm" (UDiv (UMul (UMul (UNum 2) (UNum float_pi)) (UName "rad")) (UName "min"));
   DExpr "rps" (UDiv (UMul (UMul (UNum 2) (UNum float_pi)) (UName "rad")) (UName "s"));
   DExpr "cal" (UMul (UNum (523 # 125)) (UName "J"));
   DExpr "cali" (UMul (UNum (10467 # 2500)) (UName "J"));
   DExpr "Btu" (UMul (UNum (52752792631 # 50000000)) (UName "J"));
   DExpr "acre" (UDiv (UPow (UName "mi") 2) (UNum 640));
   DExpr "hp" (UMul (UNum (7457 # 10)) (UName "W"));
   DExpr "atm" (UMul (UNum 101325) (UName "Pa"));
   DExpr "torr" (UDiv (UName "atm") (UNum 760));
   DExpr "psi" (UMul (UNum (689475729317 # 100000000)) (UName "Pa"));
   DExpr "psf" (UDiv (UName "psi") (UNum 144));
   DExpr "mu0" (UDiv (UMul (UMul (UNum (1 # 2500000)) (UNum float_pi)) (UName "N")) (UPow (UName "A") 2));
   DExpr "eps0" (UDiv (UDiv (UNum 1) (UName "mu0")) (UPow (UName "c0") 2));
   DExpr "Grav" (UDiv (UDiv (UMul (UNum (667259 # 10000000000000000)) (UPow (UName "m") 3)) (UName "kg")) (UPow (UName "s") 2));
   DExpr "Nav" (UDiv (UNum 602213670000000000000000) (UName "mol"));
   DExpr "R" (UDiv (UMul (UNum (25982 # 3125)) (UName "J")) (UMul (UName "mol") (UName "K")));
   DExpr "V0" (UDiv (UMul (UNum (28017 # 12500)) (UPow (UName "m") 3)) (UMul (UNum 1000) (UName "mol")));
   DExpr "planck" (UMul (UMul (UNum 2) (UNum float_pi)) (UName "hbar"));
   DExpr "mp" (UMul (UNum (836307 # 500000000000000000000000000000000)) (UName "kg"));
   DExpr "mn" (UMul (UNum (41873 # 25000000000000000000000000000000)) (UName "kg"));
   DExpr "sigma" (UDiv (UMul (UNum (566961 # 10000000000000)) (UName "W")) (UMul (UPow (UName "m") 2) (UPow (UName "K") (-4))));
   DExpr "Ken" (UMul (UName "sigma") (UName "K"));
   DExpr "Rinfinity" (UDiv (UNum (54868656 # 5)) (UName "m"));
   DExpr "re" (UMul (UNum (2817939 # 1000000000000000000000)) (UName "m"));
   DExpr "lambdac" (UMul (UNum (3032887 # 1250000000000000000)) (UName "m"));
   DExpr "lambdap" (UMul (UNum (13214409 # 10000000000000000000000)) (UName "m"));
   DExpr "lambdan" (UMul (UNum (13196217 # 10000000000000000000000)) (UName "m"));
   DExpr "mue" (UDiv (UMul (UNum (9284851 # 1000000000000000000000000000000)) (UName "J")) (UName "T"));
   DExpr "mup" (UDiv (UMul (UNum (14106203 # 1000000000000000000000000000000000)) (UName "J")) (UName "T"));
   DExpr "mub" (UDiv (UMul (UNum (579631 # 62500000000000000000000000000)) (UName "J")) (UName "T"));
   DExpr "mun" (UDiv (UMul (UNum (5050951 # 1000000000000000000000000000000000)) (UName "J")) (UName "T"));
   DExpr "gammap" (UDiv (UMul (UNum 267512700) (UName "rad")) (UMul (UName "s") (UName "T")));
   DExpr "gammapc" (UDiv (UMul (UNum 267519650) (UName "rad")) (UMul (UName "s") (UName "T")));
   DExpr "phi0" (UMul (UNum (10339269 # 5000000000000000000000)) (UName "Wb"));
   DExpr "hme" (UDiv (UMul (UMul (UNum (3636947 # 5000000000)) (UName "J")) (UName "s")) (UName "kg"))].
Definition shipped : config := Config shipped_prefixes shipped_base shipped_units.
