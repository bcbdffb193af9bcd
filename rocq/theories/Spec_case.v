(** * Small and capital letters in every script (uses nothing of the model). *)
From Verif Require Import Base.
Local Open Scope N_scope.

(** A text has none of some characters. *)
Definition has_none (chars : list N) (s : ustr) : Prop := forall c, In c s -> ~ In c chars.

(** The capitals that are written by two or more characters of which some is no letter (ǰ, ΐ, ẖ, ...), and
    the combining iota. *)
Definition marked_capitals : list N :=
  [496; 837; 912; 944; 7830; 7831; 7832; 7833; 8016; 8018; 8020; 8022; 8118; 8119; 8134; 8135; 8146; 8147;
   8150; 8151; 8162; 8163; 8164; 8166; 8167; 8182; 8183].
(** The capitals that the capital of their small letter is not: İ, ϴ, ẞ and the signs of Ohm, Kelvin, Ångström. *)
Definition other_capitals : list N := [304; 1012; 7838; 8486; 8490; 8491].
(** The letters that the small letters of their capital are not: ß, ı, ſ, ligatures, variants of Greek and
    Cyrillic letters, letters with an iota ..., and the sigmas, whose small letter depends on the neighbours. *)
Definition lost_small : list N :=
  [931; 962; 963; 181; 223; 305; 383; 837; 976; 977; 981; 982; 1008; 1009; 1013; 7296; 7297; 7298; 7299;
   7300; 7301; 7302; 7303; 7304; 7835; 8126; 329; 496; 912; 944; 1415; 7830; 7831; 7832; 7833; 7834; 8016;
   8018; 8020; 8022; 8064; 8065; 8066; 8067; 8068; 8069; 8070; 8071; 8072; 8073; 8074; 8075; 8076; 8077;
   8078; 8079; 8080; 8081; 8082; 8083; 8084; 8085; 8086; 8087; 8088; 8089; 8090; 8091; 8092; 8093; 8094;
   8095; 8096; 8097; 8098; 8099; 8100; 8101; 8102; 8103; 8104; 8105; 8106; 8107; 8108; 8109; 8110; 8111;
   8114; 8115; 8116; 8118; 8119; 8124; 8130; 8131; 8132; 8134; 8135; 8140; 8146; 8147; 8150; 8151; 8162;
   8163; 8164; 8166; 8167; 8178; 8179; 8180; 8182; 8183; 8188; 64256; 64257; 64258; 64259; 64260; 64261;
   64262; 64275; 64276; 64277; 64278; 64279].
