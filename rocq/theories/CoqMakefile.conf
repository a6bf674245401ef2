# This configuration file was generated by running:
# coq_makefile -f ../_CoqProject


###############################################################################
#                                                                             #
# Project files.                                                              #
#                                                                             #
###############################################################################

COQMF_VFILES = theories/Num.v theories/Task.v theories/TaskSpec.v theories/TaskProofs.v theories/TaskProofs2.v theories/PropertiesTask.v theories/Prog.v theories/Wp.v theories/GetBest.v theories/Run.v theories/RunSpec.v theories/RunProofs.v theories/AlgoLib.v theories/Fops.v theories/Indiv.v theories/AlgDE.v theories/IndivLib.v theories/DESpec.v theories/AlgDEProofs.v theories/AlgAging.v theories/RunProofs2.v theories/PropertiesRun.v theories/PropertiesDE.v theories/Repair.v theories/PropertiesRepair.v theories/Infra.v theories/PropertiesInfra.v theories/AlgTac.v theories/AlgPSO.v theories/AlgPSOProofs.v theories/B64.v theories/ExLib.v theories/PropertiesPSO.v
COQMF_MLIFILES = 
COQMF_MLFILES = 
COQMF_MLGFILES = 
COQMF_MLPACKFILES = 
COQMF_MLLIBFILES = 
COQMF_METAFILE = 
COQMF_CMDLINE_VFILES = 

###############################################################################
#                                                                             #
# Path directives (-I, -R, -Q).                                               #
#                                                                             #
###############################################################################

COQMF_OCAMLLIBS = 
COQMF_SRC_SUBDIRS = 
COQMF_COQLIBS =  -Q theories Verif 
COQMF_COQLIBS_NOML = -Q theories Verif 
COQMF_CMDLINE_COQLIBS =   

###############################################################################
#                                                                             #
# Coq configuration.                                                          #
#                                                                             #
###############################################################################

COQMF_COQLIB=/usr/lib/ocaml/coq/
COQMF_COQCORELIB=/usr/lib/ocaml/coq/../coq-core/
COQMF_DOCDIR=/usr/share/doc/
COQMF_OCAMLFIND=/usr/bin/ocamlfind
COQMF_CAMLFLAGS=-thread -rectypes -w -a+1..3-4+5..8-9+10..26-27+28..40-41-42+43-44-45+46..47-48+49..57-58+59..66-67-68+69-70   -safe-string -strict-sequence
COQMF_WARN=-warn-error +a-3
COQMF_HASNATDYNLINK=true
COQMF_COQ_SRC_SUBDIRS=boot config lib clib kernel library engine pretyping interp gramlib parsing proofs tactics toplevel printing ide stm vernac plugins/btauto plugins/cc plugins/derive plugins/extraction plugins/firstorder plugins/funind plugins/ltac plugins/ltac2 plugins/micromega plugins/nsatz plugins/ring plugins/rtauto plugins/ssr plugins/ssrmatching plugins/syntax
COQMF_COQ_NATIVE_COMPILER_DEFAULT=ondemand
COQMF_WINDRIVE=

###############################################################################
#                                                                             #
# Native compiler.                                                            #
#                                                                             #
###############################################################################

COQMF_COQPROJECTNATIVEFLAG = 

###############################################################################
#                                                                             #
# Extra variables.                                                            #
#                                                                             #
###############################################################################

COQMF_OTHERFLAGS = 
COQMF_INSTALLCOQDOCROOT = Verif
