Not modelled at all:

* Generic enums, generic functions with several parameters (`parser_utils.c` copy of trees beyond C87), type
  inference (`infer_type`), arrays, vectors, casts and lambdas in `typecheck.c`, the statement and declaration parser as
  a whole (the expression grammar is modelled; so are `match`, directives, comptime and plugin blocks),
  array literals, CUDA, Objective-C and C++ output.
* Floating point, memory words and strings of the forth plugin, defun and print of the lisp plugin; the colours and `:show`, `:type`, `:time` of the REPL; hover
  texts of the language server; the documentation.
* Several mutexes at once, weak memory orders, DNS, SIMD, regular-expression matching itself (the TRE library).
* The C compiler, the C library and the operating system: where generated C is given a meaning (C31-C33, C48, C55-C57,
  C64-C66, C69, C70, C102, C103), the meaning is a small semantics in the model or its specification file.
* Apart from C121, printing is taken to write its text. All printing of the compiler goes through `colors.c`, which is
  the same only for texts without an escape byte (C121_same); so every claim about generated C is for such programs.
