{"id": "C01", "title": "Tokenizing loses no source text", "statement": "For any PHP document, the texts of the tokens handed out by the lexer (whitespace and comments included), taken in order, are contiguous slices of the document starting at offset 0; concatenated they give back the document exactly, except that text from an unterminated /* comment on, or after the token following __halt_compiler();, is not handed out.", "quantifier": "all documents (any sequence of UTF-16 units), all runs of the lexer to end of file", "why_tests_cant": "A test checks the token texts of a few snippets; losslessness must hold for every document and every lexer state nesting.", "anchors": ["parser/phplexer.cpp: Lexer::nextTokenKind, tokenBegin, tokenEnd"]}
{"id": "C02", "title": "Token offsets stay inside the document", "statement": "Every token handed out has 0 <= begin <= end+1 and end <= size, an end equal to size occurs only for the last inline-HTML or line-comment token, and the text that ParseSession::symbol returns for a token is the document slice from begin to end.", "quantifier": "all documents, all tokens of the run", "why_tests_cant": "Off-by-one offsets only show at particular document ends or nestings.", "anchors": ["parser/phplexer.cpp: Lexer::nextTokenKind", "parser/parsesession.cpp: ParseSession::symbol"]}
{"id": "C03", "title": "Tokenizing always terminates", "statement": "Tokenizing any document reaches end of file after finitely many calls (linearly many in its size).", "quantifier": "all documents", "why_tests_cant": "A hang only shows on the specific malformed input; no finite test set can exclude one.", "anchors": ["parser/phplexer.cpp: Lexer::nextTokenKind", "parser/php.g: Parser::tokenize"]}
{"id": "C04", "title": "The lexer never reads outside the document buffer", "statement": "While tokenizing any document, no character is read beyond the terminating NUL of the buffer or before its start.", "quantifier": "all documents, all read accesses of a run", "why_tests_cant": "Out-of-bounds reads are silent in most test runs and depend on the exact end of the document.", "anchors": ["parser/phplexer.cpp: Lexer::nextTokenKind, isHereNowDocEnd, isEscapedWithBackslash, processVariable"]}
{"id": "C05", "title": "The lexer mode stack never underflows", "statement": "Starting in HTML or PHP mode, no sequence of tokens ever pops an empty mode stack or reaches the error mode; closing tags always return to HTML mode.", "quantifier": "all documents and all nestings of strings, heredocs, interpolations and closing tags", "why_tests_cant": "Nesting depth is unbounded.", "anchors": ["parser/phplexer.cpp: pushState, popState, nextTokenKind"]}
{"id": "C06", "title": "Line table is exact", "statement": "The offsets recorded as line breaks while tokenizing are, in strictly increasing order, exactly the offsets of the newline characters of the document (plus the end marker), so line and column numbers of every token are right.", "quantifier": "all documents", "why_tests_cant": "A missed newline shifts every later line number; it occurs only inside rare tokens.", "anchors": ["parser/phplexer.cpp: createNewline and its call sites"]}
{"id": "C07", "title": "Single-quoted strings end at the first unescaped quote", "statement": "In PHP mode a single quote starts a string token that extends to the first single quote not escaped by an odd run of backslashes, or to the end of the document if there is none.", "quantifier": "all documents, all contents and runs of backslashes", "why_tests_cant": "Backslash runs are unbounded.", "anchors": ["parser/phplexer.cpp: nextTokenKind (case '\\''), isEscapedWithBackslash"]}
{"id": "C08", "title": "Double-quoted strings: constant vs interpolated", "statement": "In PHP mode a double quote yields one constant-string token ending at the first unescaped double quote iff no unescaped variable start ($name or ${) occurs before it; otherwise a lone quote token is produced and string mode entered.", "quantifier": "all documents", "why_tests_cant": "All placements of escapes, dollars and quotes.", "anchors": ["parser/phplexer.cpp: nextTokenKind (case '\"'), isEscapedWithBackslash, isValidVariableIdentifier"]}
{"id": "C09", "title": "Comments end where PHP says they end", "statement": "A /* comment ends right after the first following */; a // or # comment ends at the first newline (included) or right before the first ?>, or at end of file; consecutive /// lines form a single doc comment.", "quantifier": "all documents", "why_tests_cant": "Comment bodies are unbounded and may contain any near-terminators.", "anchors": ["parser/phplexer.cpp: nextTokenKind (cases '/' and '#')"]}
{"id": "C10", "title": "Operators are lexed by longest match", "statement": "In PHP mode, at any operator character the token produced is the longest operator of PHP's operator table that prefixes the remaining text, and exactly its characters are consumed.", "quantifier": "all remaining texts", "why_tests_cant": "All following characters matter.", "anchors": ["parser/phplexer.cpp: nextTokenKind DefaultState operators"]}
{"id": "C11", "title": "Keywords are recognised case-insensitively and only as whole words", "statement": "In PHP mode an identifier start yields the maximal run of identifier characters; it is the keyword token of PHP's keyword table iff the whole run equals a keyword ignoring case, else a plain identifier token (with the documented look-ahead for static:: and yield from).", "quantifier": "all texts, all capitalisations", "why_tests_cant": "2^n capitalisations and arbitrary continuations.", "anchors": ["parser/phplexer.cpp: nextTokenKind identifiers"]}
{"id": "C12", "title": "Nowdoc bodies are verbatim and end at the first terminator line", "statement": "After <<<'ID' newline, the text up to the first line start at which ID followed by newline or ;newline occurs is one string token without interpolation, and then the end token consumes exactly ID.", "quantifier": "all bodies, all identifiers", "why_tests_cant": "Bodies are unbounded and may contain near-terminators.", "anchors": ["parser/phplexer.cpp: nextTokenKind StringNowdoc, isHereNowDocEnd"]}
{"id": "C13", "title": "Nothing after __halt_compiler(); influences the tokens", "statement": "After the tokens __halt_compiler ( ) ; (whitespace and comments allowed between) the lexer reports end of file, and the tokens before do not depend on the text after.", "quantifier": "all documents with a common prefix", "why_tests_cant": "A relational property over two unbounded tails.", "anchors": ["parser/phplexer.cpp: m_haltCompiler handling"]}
{"id": "C14", "title": "Text outside PHP tags is never interpreted", "statement": "In HTML mode the lexer produces inline-HTML covering everything up to the next <? and only <? (not followed by xml), <?= or <?php+space opens PHP mode; a document without <? is a single inline-HTML token.", "quantifier": "all documents", "why_tests_cant": "All HTML texts.", "anchors": ["parser/phplexer.cpp: nextTokenKind HtmlState"]}
{"id": "C15", "title": "Number literals are classified as integer or float correctly", "statement": "A decimal or hexadecimal literal token is integer iff it has no point or exponent and its value fits a signed 64-bit integer, else float; binary literals likewise.", "quantifier": "all literals", "why_tests_cant": "Unbounded digit strings and overflow boundary.", "anchors": ["parser/phplexer.cpp: nextTokenKind numbers"]}
{"id": "C16", "title": "Casts", "statement": "( optional blanks word optional blanks ) is a single cast token exactly when the word is a PHP cast type ignoring case; otherwise ( is a plain parenthesis and nothing else is consumed.", "quantifier": "all texts after a parenthesis", "why_tests_cant": "All blanks and words.", "anchors": ["parser/phplexer.cpp: nextTokenKind case '('"]}
{"id": "C17", "title": "Parser token stream: no blanks or comments, one end marker, right doc comments", "statement": "The parser's token stream is exactly the lexer's non-blank, non-comment tokens in order followed by one end token, and the doc comment reported for a token is the last doc comment between it and the preceding token, or none.", "quantifier": "all documents", "why_tests_cant": "Any interleaving of comments and tokens.", "anchors": ["parser/php.g: Parser::tokenize", "parser/parsesession.cpp: ParseSession::docComment"]}
{"id": "C18", "title": "Completion index behaves as a counted per-file map", "statement": "Any sequence of add/update/remove of completion items for files behaves like a map from (file, identifier) to (kind, pretty name, count): an item is listed for a file iff it was added more often than removed, with the attributes of the latest add/update; other files and identifiers are unaffected.", "quantifier": "all histories of operations over all files and identifiers", "why_tests_cant": "Histories are unbounded; refcount bugs appear only after interleavings.", "anchors": ["duchain/completioncodemodel.cpp: addItem, updateItem, removeItem, items"]}
{"id": "C19", "title": "Inheritance stays acyclic and ancestor walks terminate", "statement": "However classes are declared to extend each other over any history of base declarations, the recorded base-class relation never contains a cycle, so the walk up the ancestors used for redeclaration checks terminates.", "quantifier": "all sequences of extends/implements declarations", "why_tests_cant": "A cycle needs a particular history over unboundedly many classes.", "anchors": ["duchain/builders/contextbuilder.cpp: addBaseType", "duchain/builders/declarationbuilder.cpp: isBaseMethodRedeclaration"]}
{"id": "C20", "title": "Namespaces opened are closed in reverse order", "statement": "For any sequence of namespace statements (bracketed or not, any number of components) in a file, every opened namespace context is closed exactly once, in reverse order, and at end of file only the top context is open.", "quantifier": "all files, all namespace sequences", "why_tests_cant": "Unbounded nesting and sequence lengths.", "anchors": ["duchain/builders/contextbuilder.cpp: visitNamespaceDeclarationStatement, closeNamespaces, visitStart"]}
{"id": "C21", "title": "Variable types accumulate all assigned types", "statement": "After any sequence of assignments to a variable in one scope, its declared type is: none known -> mixed replaced by the first concrete type; one distinct type -> that type; several -> the unsure union of exactly the distinct assigned types, each once; the result does not depend on repetition.", "quantifier": "all assignment histories", "why_tests_cant": "Histories are unbounded.", "anchors": ["duchain/builders/declarationbuilder.cpp: declareVariable"]}
{"id": "C22", "title": "Function return type accumulates all returned types", "statement": "After visiting any sequence of return statements the inferred return type is the union of the returned types (mixed yielding to anything concrete), unless a doc comment or return-type hint fixed it, in which case no return statement changes it.", "quantifier": "all sequences of return statements", "why_tests_cant": "Histories are unbounded.", "anchors": ["duchain/builders/typebuilder.cpp: visitStatement, updateCurrentType"]}
{"id": "C23", "title": "Parameter type from hint, default and doc comment", "statement": "The type of a parameter is determined by precedence: type hint (if it resolves), then the type of the default value, then the doc comment, else mixed; a null default or nullable hint adds null; by-reference wraps in a reference; variadic wraps in an array; no parameter list crashes the analysis.", "quantifier": "all combinations of hint, default value, doc type, by-reference and variadic", "why_tests_cant": "The combination space includes unbounded union hints.", "anchors": ["duchain/helper.cpp: parameterType, determineGenericTypeHint, determineTypehintFromList, propertyType, returnType"]}
{"id": "C24", "title": "Doc comment tag search finds exactly the lines starting with the tag", "statement": "Searching a doc comment for a tag returns, in order, the text after the tag of each line whose first characters other than blank, * and / are the tag followed by whitespace, and always terminates without reading outside the comment.", "quantifier": "all comments and tags", "why_tests_cant": "Comments are unbounded texts.", "anchors": ["duchain/builders/typebuilder.cpp: findInDocComment"]}
{"id": "C25", "title": "Doc comment types", "statement": "A doc type A|B|... denotes the unsure union of its non-mixed members; T[] denotes an array of T; scalar names are case-insensitive; unknown names give mixed.", "quantifier": "all type strings", "why_tests_cant": "Unbounded nesting of | and [].", "anchors": ["duchain/builders/typebuilder.cpp: parseType, parseSimpleType, injectParseType"]}
{"id": "C26", "title": "Method modifiers decide visibility, static, abstract, final", "statement": "The recorded access, static, abstract and final flags of a class member and the reported modifier errors are exactly those PHP prescribes for the set of modifiers written, in any order.", "quantifier": "all modifier sets, all class kinds", "why_tests_cant": "All combinations of 6 modifier bits, class kinds, bodies.", "anchors": ["duchain/builders/declarationbuilder.cpp: visitClassStatement, openClassMemberDeclaration", "duchain/builders/typebuilder.cpp"]}
{"id": "C27", "title": "Importing trait methods respects precedence", "statement": "A class using traits gets a member for every trait method that is neither declared in the class itself nor excluded by insteadof or another trait's earlier method; own methods win; all used traits are considered.", "quantifier": "all lists of traits, methods, exclusions", "why_tests_cant": "Unbounded lists and orders.", "anchors": ["duchain/builders/declarationbuilder.cpp: importTraitMethods, createTraitAliasDeclarations"]}
{"id": "C28", "title": "Name lookup is case-insensitive where PHP is", "statement": "Two spellings of a class, function, method or namespace that differ only in case resolve to the same identifier; constants and variables stay case-sensitive in their last component.", "quantifier": "all names, all casings", "why_tests_cant": "All casings of unbounded names.", "anchors": ["duchain/helper.cpp: identifierForNamespace, identifierWithNamespace", "duchain/builders/contextbuilder.cpp: identifierPairForNode"]}
{"id": "C29", "title": "Declaration lookup only returns declarations of the requested kind", "statement": "Looking up a class, function, constant, namespace or variable never returns a declaration of another kind, and self/static/parent resolve to the enclosing class or its parent class only.", "quantifier": "all scopes and names", "why_tests_cant": "All declaration graphs.", "anchors": ["duchain/helper.cpp: isMatch, findDeclarationImportHelper"]}
{"id": "C30", "title": "Include file resolution", "statement": "An include path resolves to the first existing candidate in the order: remote URL as is, relative to the including file's directory, relative to the root of a project containing the file, relative to the root of any other open project; never to a nonexistent local file.", "quantifier": "all file systems, projects and include strings", "why_tests_cant": "All file-system states and project lists.", "anchors": ["duchain/helper.cpp: findIncludeFile, getIncludeFileForNode"]}
{"id": "C31", "title": "Expression result types", "statement": "The type assigned to an operator or cast expression is the one PHP gives: casts give their target type, comparison and logic give boolean, <=> integer, concatenation string, arithmetic numeric.", "quantifier": "all expressions", "why_tests_cant": "Expressions are unbounded trees.", "anchors": ["duchain/expressionvisitor.cpp: visitUnaryExpression, visitAdditiveExpression, visitAssignmentExpression, ..."]}
{"id": "C32", "title": "Code completion never looks outside the token list", "statement": "Building a completion context for any text before the cursor never accesses a token outside the token list and always terminates (given that tokenizing does).", "quantifier": "all texts before the cursor", "why_tests_cant": "Index errors need particular short texts.", "anchors": ["completion/context.cpp: TokenAccess, prependedBy, removeOtherArguments, CodeCompletionContext ctor, evaluateExpression"]}
{"id": "C33", "title": "No completion inside comments", "statement": "If the text before the cursor ends inside an unterminated /* comment or a line comment, no completion is offered.", "quantifier": "all texts before the cursor", "why_tests_cant": "All texts and comment bodies.", "anchors": ["completion/context.cpp: CodeCompletionContext ctor", "parser/phplexer.cpp: nextTokenKind"]}
{"id": "C34", "title": "Argument skipping finds the enclosing call's parenthesis", "statement": "From a comma, skipping back over earlier arguments stops at exactly the opening parenthesis that encloses the comma with balanced parentheses in between, or reports none if no such parenthesis exists.", "quantifier": "all token lists", "why_tests_cant": "Unbounded nesting.", "anchors": ["completion/context.cpp: removeOtherArguments"]}
{"id": "C35", "title": "Member completion respects visibility", "statement": "Member completion offers a member iff PHP would allow access from the current class (private: same class; protected: subclass; public: everywhere) and its staticness fits the operator.", "quantifier": "all class graphs, members and contexts", "why_tests_cant": "All combinations.", "anchors": ["completion/context.cpp: completionItems"]}
{"id": "C36", "title": "Override completion offers each overridable member once", "statement": "Override completion never offers a member that is private, final, already implemented in the class or excluded by the typed modifiers, and offers no name twice.", "quantifier": "all class hierarchies and modifier lists", "why_tests_cant": "Unbounded hierarchies.", "anchors": ["completion/context.cpp: completionItems (ClassMemberChoose)"]}
{"id": "C37", "title": "Forbidden identifiers are exactly the class and all its ancestors", "statement": "When completing a base class or interface, the excluded identifiers are exactly the class being written and all its transitive bases; the computation terminates on any (even cyclic) base graph.", "quantifier": "all base-class graphs", "why_tests_cant": "Graphs are unbounded.", "anchors": ["completion/context.cpp: forbidIdentifier"]}
{"id": "C38", "title": "Class completion filters by kind", "statement": "new offers only instantiable classes, extends only non-final classes, implements only interfaces, catch/throw new only exception classes, none of them a forbidden identifier.", "quantifier": "all declarations", "why_tests_cant": "All declarations.", "anchors": ["completion/context.cpp: isValidCompletionItem"]}
{"id": "C39", "title": "Modifier scanning before the cursor", "statement": "The modifiers recognised before the cursor are exactly the maximal sequence of distinct modifier words ending the text, in reverse order; scanning terminates.", "quantifier": "all texts", "why_tests_cant": "All texts.", "anchors": ["completion/helpers.cpp: getMethodTokens"]}
{"id": "C40", "title": "Keyword completion puts the cursor at the marker", "statement": "Executing a keyword completion inserts the template with markers removed and indentation applied and puts the cursor exactly where the cursor or selection marker was.", "quantifier": "all templates, columns and indentations", "why_tests_cant": "All lines, columns and indentations.", "anchors": ["completion/keyworditem.cpp: KeywordItem::execute", "completion/helpers.cpp: getIndentation, indentString"]}
{"id": "C41", "title": "Argument list rendering pairs defaults with the right parameters", "statement": "The rendered argument list shows every parameter once, in order, with default values attached to the last parameters in order, never reads past the default list, and the highlight segments tile the text.", "quantifier": "all functions", "why_tests_cant": "All parameter counts.", "anchors": ["completion/helpers.cpp: createArgumentList"]}
{"id": "C42", "title": "Rename touches exactly the uses of the declaration", "statement": "Renaming produces exactly one change per nonempty use of the declaration in every nested scope, in order, and keeps a leading $ out of the replaced range exactly when the range is one longer than the name.", "quantifier": "all scope trees and uses", "why_tests_cant": "Unbounded trees.", "anchors": ["codegen/refactoring.cpp: applyChanges, applyChangesToDeclarations, shouldRemoveDollar"]}
{"id": "C43", "title": "Unresolved identifiers reschedule a file at most once", "statement": "A file whose parse leaves unresolved identifiers is re-queued once, with no better priority and at most the worst priority, and a re-queued parse never re-queues it again; temporary flags never reach the stored features.", "quantifier": "all parse histories", "why_tests_cant": "Histories of parse jobs are unbounded.", "anchors": ["phpparsejob.cpp: ParseJob::run"]}
{"id": "C44", "title": "PHPUnit contexts are processed once the TestCase declaration is known", "statement": "For any order of update notifications, no context is examined before the TestCase declaration is available, and every context received is examined exactly once after it is.", "quantifier": "all notification histories", "why_tests_cant": "Orderings are unbounded.", "anchors": ["testprovider/phpunitprovider.cpp: updateReady, processContext"]}
{"id": "C45", "title": "PHPUnit results", "statement": "The suite result is failed iff the run failed or the last output line of some recognised case is marked failed, error for any exit other than success and failure, passed otherwise; a case's recorded result is that of the last output line that reports it, and a case no line reports has no result.", "quantifier": "all output line sequences", "why_tests_cant": "Output is unbounded.", "anchors": ["testprovider/phpunitrunjob.cpp: rowsInserted, processFinished"]}
{"id": "C46", "title": "Documentation file names", "statement": "Every built-in function, class, method or superglobal gets a non-empty documentation name; local names are lower case, contain no underscore and end in .html.", "quantifier": "all declarations", "why_tests_cant": "All identifiers.", "anchors": ["docs/phpdocsplugin.cpp: getDocumentationFilename"]}
{"id": "C47", "title": "Word under cursor", "statement": "The word found at a cursor is the maximal run of letters and underscores around it, with a range that delimits exactly that word, without reading outside the line.", "quantifier": "all lines and columns", "why_tests_cant": "All lines and columns.", "anchors": ["phplanguagesupport.cpp: wordUnderCursor, isMagicConstant"]}
{"id": "C48", "title": "Magic constants resolve to the enclosing scope", "statement": "__CLASS__, __FUNCTION__, __METHOD__ and __NAMESPACE__ show the innermost enclosing scope of the right kind, or an explicit 'empty' note, and the search terminates.", "quantifier": "all scope trees and positions", "why_tests_cant": "Unbounded nesting.", "anchors": ["duchain/navigation/magicconstantnavigationcontext.cpp: findContext, html"]}
{"id": "C49", "title": "Namespace-qualified uses", "statement": "For a qualified name, one use is recorded per component, each for the namespace prefix ending at that component and the last for the requested kind; names are resolved locally first, then globally; not-found is reported exactly for components that resolve to nothing.", "quantifier": "all qualified names and declaration sets", "why_tests_cant": "Unbounded names.", "anchors": ["duchain/builders/usebuilder.cpp: buildNamespaceUses"]}
{"id": "C50", "title": "Type equality and hashing agree", "statement": "Extended container and integral types that compare equal have equal hashes, equality is an equivalence relation, and cloning preserves equality.", "quantifier": "all types", "why_tests_cant": "Types are unbounded trees.", "anchors": ["duchain/types/indexedcontainer.cpp", "duchain/types/integraltypeextended.cpp"]}
{"id": "C51", "title": "Variables and blanks are maximal runs", "statement": "In PHP mode $ followed by an identifier start yields one variable token covering $ and the maximal run of identifier characters; a blank yields one whitespace token covering the maximal run of blanks.", "quantifier": "every document, every reachable lexer state in PHP mode, every identifier and continuation", "why_tests_cant": "the set of names, blanks and continuations is unbounded", "anchors": ["parser/phplexer.cpp:Lexer::processVariable", "parser/phplexer.cpp:Lexer::nextTokenKind"]}
{"id": "C52", "title": "Variable completion offers each visible variable once", "statement": "Global completion offers each variable name at most once, never a local variable of another scope, and offers every variable declared before the cursor in the current scope.", "quantifier": "all lists of visible declarations and cursor positions", "why_tests_cant": "Unbounded declaration lists in any order.", "anchors": ["completion/context.cpp: completionItems, isValidCompletionItem"]}
{"id": "C53", "title": "Redeclarations are reported", "statement": "A class, function or define() constant is reported as redeclared exactly when an earlier declaration of the same kind in the file has the same full name (case-insensitively for classes and functions).", "quantifier": "all sequences of declarations", "why_tests_cant": "Sequences and names are unbounded.", "anchors": ["duchain/builders/declarationbuilder.cpp: isGlobalRedeclaration, openTypeDeclaration, visitFunctionDeclarationStatement, visitFunctionCall"]}
{"id": "C54", "title": "Registered PHPUnit suites", "statement": "Examining a file registers as test suites exactly the non-abstract project classes with at least one method whose name begins with \"test\" that are test classes of the file or derive from one through classes that are not themselves runnable; each suite lists exactly its own test methods in order.", "quantifier": "all sets of class declarations and inheritance relations", "why_tests_cant": "Class hierarchies are unbounded.", "anchors": ["testprovider/phpunitprovider.cpp: processContext, processTestCaseDeclaration"]}
{"id": "C55", "title": "Documentation index rows", "statement": "The documentation index lists exactly the non-constant declarations of the internal function file in order, each class followed by its members; updates of other files do not change it.", "quantifier": "all declaration lists and update histories", "why_tests_cant": "Declaration lists and histories are unbounded.", "anchors": ["docs/phpdocsmodel.cpp: fillModel, updateReady, rowCount, declarationForIndex"]}
{"id": "C56", "title": "Completion offers what may stand behind the text", "statement": "Behind new, throw, throw new, catch (, instanceof, extends, implements (also inside the list of interfaces), a modifier or a token that starts an expression, completion offers the kind of names PHP allows there (classes, exceptions, interfaces, class members, anything), leaving out the class or interface being declared and the interfaces already listed; behind a variable, number, name declaration keyword and similar tokens it offers nothing.", "quantifier": "all texts before the cursor, with any blanks, any names and any length of the interface list", "why_tests_cant": "Unbounded texts and lists; every token kind.", "anchors": ["completion/context.cpp: CodeCompletionContext ctor, forbidIdentifier", "completion/context.h: MemberAccessOperation"]}
{"id": "C57", "title": "The expression completed or called is the one left of the cursor", "statement": "Behind -> the members of exactly the expression to its left (from the start of the statement or argument, parentheses balanced) are offered, and none if it has no type; behind name:: static members are offered; inside the arguments of a call the hint is for the text of that call's callee.", "quantifier": "all texts before the cursor, all expressions with any nesting of parentheses, all earlier arguments", "why_tests_cant": "Unbounded nesting and lengths.", "anchors": ["completion/context.cpp: evaluateExpression, removeOtherArguments, CodeCompletionContext ctor"]}
{"id": "C58", "title": "Parsing a file always ends", "statement": "The parser finishes on every token list and so reading and parsing any text finishes, however broken it is: error recovery, lists and try parts never loop.", "quantifier": "all token lists, all texts the lexer finishes on (C03, C04), everything the parser generator leaves open", "why_tests_cant": "Unbounded inputs, with error recovery.", "anchors": ["parser/php.g: all rules, tokenize", "parser/parsesession.cpp: ParseSession::parse"]}
{"id": "C59", "title": "Nodes and problems lie where they belong", "statement": "In the tree of an accepted file every token is the token at that index of the file, tokens are in file order, every node covers its tokens and the nodes in it and nothing reaches beyond the file; every problem is at a token of the file or at its end; a rejected file has an error.", "quantifier": "all token lists, with and without syntax errors", "why_tests_cant": "Every navigation feature uses these positions, for all files, also broken ones.", "anchors": ["parser/php.g: all rules, reportProblem, expectedToken, expectedSymbol", "parser/parsesession.cpp: ParseSession::parse"]}
{"id": "C60", "title": "A file parsed without errors is a word of the grammar", "statement": "If the parser accepts a file and reports no error then the tree is a derivation with the rules of php.g whose tokens are all the tokens of the file, none left out.", "quantifier": "all token lists", "why_tests_cant": "Unbounded inputs; blocked errors and recovery could hide a mistake.", "anchors": ["parser/php.g: all rules, try/rollback, try/recover, blockErrors"]}
{"id": "C61", "title": "Operators group as in PHP", "statement": "A statement that is an expression is read as the expression PHP reads: operators of a tighter level first, operators of one level from left to right or from right to left as the PHP manual's table says, parentheses around what they enclose; no problem is reported for it.", "quantifier": "all expressions over variables, literals, strings with variables in them, arrays, constants, indices, properties, calls, static members, new, isset/empty/eval/exit/clone, counters, list(), yield, include, instanceof, unary and binary operators, assignments, ternaries and print, of any size, and files of any number of them", "why_tests_cant": "The grammar has 22 levels; an expression may combine all of them at any depth.", "anchors": ["parser/php.g: expr to varExpressionNormal"]}
{"id": "C62", "title": "Assigning to something that is no variable is reported", "statement": "When the left side of an assignment is not a variable (nor an element, property or static member), the parser reports an error at the assignment; what `=&` takes a reference to is a variable or a new object, or is reported.", "quantifier": "all left sides, all assignment operators, any statements before it and any text behind it", "why_tests_cant": "The check is a flag that any part of the left side may set; only an argument over all expressions shows when it is set.", "anchors": ["parser/php.g: assignmentExpression, assignmentExpressionEqual, assignmentExpressionCheckIfVariable, varExpressionNormal"]}
{"id": "C63", "title": "Reading a file takes effort proportional to its size", "statement": "The number of tokens the parser reads (counting every token again when it goes back) is bounded by a constant times the length of the file.", "quantifier": "all files", "why_tests_cant": "A bound for all files; timing a few files does not show growth on nested ones.", "anchors": ["parser/php.g: varExpressionNormal, baseVariableWithFunctionCalls (try/rollback)"]}
{"id": "C64", "title": "A syntax error does not lose the rest of the file", "statement": "After a syntax error the parser goes on: what follows the broken part is still in the tree.", "quantifier": "all broken parts, all that follows", "why_tests_cant": "Unbounded inputs.", "anchors": ["parser/php.g: start, topStatement, innerStatementList, try/recover", "parser/parsesession.cpp: ParseSession::parse"]}
{"id": "C65", "title": "A file is read as the program it is", "statement": "A PHP file made of statements (also with the colon syntax), functions, classes, interfaces, traits, imports and namespaces is accepted with no problem, and the tree has exactly these parts, each with its own conditions, bodies, parameters, types, modifiers and names; an else belongs to the nearest condition that can take it.", "quantifier": "all such files, of any length and depth of nesting", "why_tests_cant": "The programs are unboundedly long and nested, and every kind of statement can stand inside and behind every other.", "anchors": ["parser/php.g: start, topStatement, statement, innerStatementList, classStatement, functionDeclarationStatement, namespaceDeclarationStatement, useStatement, parameter, staticScalar"]}
{"id": "C66", "title": "The variables of a scope are those the program gives values to", "statement": "Each function, closure and file gets a scope that declares its parameters and every variable it gives a value - by assignment, as a list or foreach target, as an argument for a reference parameter, as a static, global or caught variable - and no other variable; the type of each value assigned is among the types of the variable.", "quantifier": "all programs, of any length and nesting, and all types of expressions", "why_tests_cant": "Assignments, calls, closures, loops and lists can be nested in each other without bound, and the walk keeps state (the variable found last, the function being called, the type seen last) across all of them.", "anchors": ["duchain/builders/declarationbuilder.cpp: getVariableIdentifier, visitVariable, visitAssignmentExpression, visitAssignmentExpressionEqual, declareVariable, declareFoundVariable, visitFunctionCall, visitFunctionCallParameterListElement, visitAssignmentListElement, visitStatement, visitStaticVar, visitGlobalVar, visitCatchItem, visitClosure, visitLexicalVar", "duchain/builders/typebuilder.cpp: visitAssignmentExpression, visitCatchItem, visitStatement", "duchain/builders/contextbuilder.cpp: visitFunctionDeclarationStatement, visitClosure"]}
{"id": "C67", "title": "A class declares the properties its methods assign", "statement": "When a method gives a property of $this a value - by assignment, also with an index, as a list or foreach target, or as an argument for a reference parameter - the class declares that property; no other property is declared for it.", "quantifier": "all classes, with any number of methods of any length and nesting, all types of expressions and all declarations around the class", "why_tests_cant": "Methods are unbounded, and whether a property is declared depends on every variable seen before in the method and around the class.", "anchors": ["duchain/builders/declarationbuilder.cpp: getVariableIdentifier, getClassContext, visitAssignmentExpressionEqual, declareFoundVariable, declareClassMember"]}
{"id": "C68", "title": "Source text is read as the program it is", "statement": "A text written by PHP's rules - HTML, opening and closing tags, keywords, names, numbers, operators, casts, blanks and comments, constant strings, strings and heredocs and backticks with variables and code in their braces, nowdocs - is split into exactly the tokens it spells, each with its text, so it has one reading; and if these are the tokens of a program of C65, opening the text gives this program, with no problem reported.", "quantifier": "every text and every way to spell a token list; every program of C65; every character table that is right on ASCII; both versions of the error recovery", "why_tests_cant": "texts are unbounded and nest (code in strings in code), and every token's reading depends on all text in front of it (the lexer's state) and behind it (look-ahead)", "anchors": ["parser/phplexer.cpp: Lexer::nextTokenKind", "parser/tokenstream / parser/php.g: Parser::tokenize", "parser/parsesession.cpp: ParseSession::parse", "parser/php.g"]}
{"id": "C69", "title": "Broken rules of the language are reported where they are broken", "statement": "While a file is analysed a problem is reported at: the default value of a variadic parameter; a default value other than null of a parameter whose type is a class; a variadic parameter that is not the last; a positional argument behind an unpacked one; a yield that is not in the body of a function, method or closure; a class, interface, trait, type hint or alias with a reserved name; a use statement that has no effect; a constant of a trait; a class constant called 'class'. No such problem is reported anywhere else, however functions, closures, calls, classes and namespaces are nested.", "quantifier": "all files (trees of functions, closures, classes, calls, namespaces nested to any depth), all rules, all positions", "why_tests_cant": "The checks depend on state that is saved and restored while the tree is walked (previous parameter, previous argument, current context); tests fix a few nestings.", "anchors": ["duchain/builders/declarationbuilder.cpp visitParameterList, visitParameter, visitFunctionCallParameterList, visitFunctionCallParameterListElement, visitVarExpression, visitGenericTypeHint, visitNonGroupedUseNamespace, visitClassConstantDeclaration, isReservedClassName", "duchain/builders/contextbuilder.cpp visitFunctionDeclarationStatement, visitClosure, visitClassStatement, visitNamespaceDeclarationStatement", "duchain/helper.cpp hasClassTypehint, isGenericClassTypehint"]}
{"id": "C70", "title": "Each declaration gets the type its own syntax gives it", "statement": "In the analysed file every declaration carries its own type: a variable that of the value assigned, a parameter, function, closure, method or class its own, a constant that of its value (and marked constant), a property the type of its hint, else the documented one, else that of its value, else null, a caught exception the class named. No declaration takes the type of a neighbour.", "quantifier": "all files: any nesting of functions, closures, classes and statements with any doc comments", "why_tests_cant": "The type is taken from mutable state of the builder (a stack, the type closed last and flags), so any preceding code may disturb it.", "anchors": ["duchain/builders/typebuilder.cpp: parseDocComment, getTypeForNode, visitClassStatement, visitClassVariable, visitClassConstantDeclaration, visitConstantDeclaration, visitStaticVar, visitCatchItem, visitStatement", "duchain/builders/declarationbuilder.cpp: closeDeclaration, visitClassVariable, visitClassConstantDeclaration, visitFunctionCall (define), visitStatement, visitCatchItem, closeNamespace"]}
{"id": "C71", "title": "Choosing a member to override writes a method that overrides it", "statement": "Choosing a member that the completion offers for overriding or implementing replaces the modifiers and the word typed before the cursor with a complete method: the typed modifiers plus those it needs to override the member, the same name, parameters and default values, and a body that calls the parent's method with the same parameters (and returns its value unless there is none), or an empty body for what is abstract. The rest of the document stays as it is, and the document is then parsed as the old program with this method in the class.", "quantifier": "all documents, cursor positions, typed modifiers and words; all members with any parameters and default values; any program of C65 around the class", "why_tests_cant": "The replaced range is found by searching the whole text before the cursor backwards and the text is put together from strings; that it is the right place and reads as the intended method depends on every document and member.", "anchors": ["completion/implementationitem.cpp: ImplementationItem::execute", "completion/helpers.cpp: getMethodTokens, getIndentation, createArgumentList", "completion/context.cpp: CodeCompletionContext::classMemberCompletionItems (override part)"]}
{"id": "C72", "title": "Variables are connected to their declarations; undeclared variables are marked", "statement": "After a file has been analysed, every occurrence of a variable in an expression is a use of a declaration with that name in its own scope (the file, or the function it is in), made at a parameter or at a place that gives the variable a value, at or before the occurrence; if there is none, it is a use of the superglobal variable of that name; if there is none either, it is marked as undeclared. No other place is marked. The name in a global statement is a use of the variable of the file.", "quantifier": "every program made of expressions, assignments, calls, lists, foreach, static, global, catch and function declarations nested to any depth; every occurrence; every set of variables from included files; whatever types expressions have", "why_tests_cant": "It depends on the whole history of declarations in a scope, on where in nested expressions a variable stands (the mark for the left side of an assignment is passed through the tree by a flag) and on nesting; programs are unbounded", "anchors": ["duchain/expressionvisitor.cpp: processVariable, visitVariable, visitAssignmentExpression, findVariableDeclaration", "duchain/builders/usebuilder.cpp: UseBuilder::visitStatement, visitGlobalVar, newCheckedUse, UseExpressionVisitor::usingDeclaration", "duchain/builders/declarationbuilder.cpp: declareVariable, declareFoundVariable, visitGlobalVar"]}
{"id": "C73", "title": "Members behind -> and :: are connected to the member of the object's class", "statement": "In an expression of any shape, each property, method or constant named behind -> or :: becomes a use of the member of that kind and name that the class of what stands in front has: its own, or else one of a class it extends or implements, private properties not inherited. The class of what stands in front is found through calls and accesses: the return type of the method, the type of the property. If the class has no such member, the name is marked as unknown; if the class is not known, nothing is said about the name. A name is never connected to a member with another name.", "quantifier": "all expressions, chained and nested to any depth, with arguments and indexes; all classes, with any members and any inheritance without cycles; all types of variables", "why_tests_cant": "Chains, arguments and inheritance are unbounded, and the type of each step depends on all steps before.", "anchors": ["duchain/expressionvisitor.cpp: visitVariableProperty, visitFunctionCall, visitStaticMember, visitConstantOrClassConst, useDeclaration, findClassContext, visitArrayIndexSpecifier, visitFunctionCallParameterList", "duchain/expressionevaluationresult.cpp: setDeclarations", "duchain/builders/usebuilder.cpp: UseExpressionVisitor::usingDeclaration"]}
{"id": "C74", "title": "Completing the file name of an include", "statement": "Behind an include or require with an opened quote, the files and folders of the folder written so far are offered, each once, and nothing else but the folder above; the path written, with the chosen name, denotes the file or folder chosen, also behind dirname(__FILE__) . or __DIR__ . . Choosing one puts its name in place of the rest of an old name, and closes the quote, the parenthesis if one was opened, and the statement, each once; no other text changes. Behind a folder the cursor stands where its files can be completed.", "quantifier": "all texts before and behind the cursor, of any length and in any case, with any blanks; all folders written, with . and .. in any number; all contents of folders of any number of projects; all names", "why_tests_cant": "Texts, paths and folders are unbounded, and each character may be part of the statement or of what has to stay.", "anchors": ["completion/includefileitem.cpp: IncludeFileItem::execute", "completion/context.cpp: CodeCompletionContext::completionItems (FileCompletion), getCandidates"]}
{"id": "C75", "title": "Every class, function and constant named becomes a use, once", "statement": "After a file is parsed, every place where a class, a function or a constant is named (new, instanceof, calls, constants, static members, type hints, catch, extends, implements, trait uses, use statements) is a use, that is, is connected to its declaration or reported as not found; it is so once; nothing else is such a use; and no null pointer is followed.", "quantifier": "all syntax trees: expressions, statements, functions, classes and closures nested in each other to any depth, with any number of names", "why_tests_cant": "The walk is split over two visitors that each override some of the visit functions; a place may be read by none of them, by one, or by both, and that depends on what it is nested in.", "anchors": ["duchain/builders/usebuilder.cpp: UseBuilder::visitExpr, visitStatement, visitStaticScalar, visitClassStatement, visitTraitAliasStatement, visitCatchItem", "duchain/expressionvisitor.cpp: ExpressionVisitor::visitFunctionCall, visitVarExpressionNewObject, visitClassNameReference, visitStaticMember, visitClosure, visitConstantOrClassConst"]}
{"id": "C76", "title": "Assigning to a private or protected property from elsewhere is reported", "statement": "For an assignment to a property of an object, an error is reported just when PHP forbids it: the property is a private one of the object's class and the code is not in that class, or the property found in the object's class or the nearest base class is protected and the code is in no class above or below the one that declares it. A private property of the class the code is in is its own on all objects of that class and those below. Properties of $this are never reported.", "quantifier": "all class hierarchies of any depth with any properties; all places of the assignment; all variables around it", "why_tests_cant": "Which declaration decides depends on three chains of classes and scopes at once, all of unbounded length.", "anchors": ["duchain/builders/declarationbuilder.cpp: DeclarationBuilder::visitAssignmentExpressionEqual, getClassContext"]}
{"id": "C77", "title": "Variables in and behind closures are looked up in the function they stand in", "statement": "After a file has been analysed, a variable read or assigned to in a closure is connected to what that closure declares under its name (a parameter, a captured variable, a variable of its own), and is marked as undeclared only if that is nothing; a variable outside of the closure - also in the same expression, behind the closure - is connected to what its own function or the file declares; a variable behind `use` is connected to the variable around the closure.", "quantifier": "every program made of expressions, calls, assignments, closures, function declarations and return statements nested to any depth; every variable in it; whatever the functions declare", "why_tests_cant": "Which context is used depends on marks an earlier pass left on some nodes, and on which of them were passed before, through any number of nested closures; the existing tests only have closures that return their value or stand in arguments of calls", "anchors": ["duchain/expressionvisitor.cpp: visitNode, visitClosure, visitAssignmentExpression, visitStatement, processVariable", "duchain/builders/usebuilder.cpp: visitExpr, visitNodeWithExprVisitor", "duchain/builders/contextbuilder.cpp: visitFunctionCallParameterListElement, visitClosure, visitFunctionDeclarationStatement", "duchain/builders/typebuilder.cpp: getTypeForNode, visitAssignmentExpression, visitStatement, visitClosure, visitFunctionDeclarationStatement"]}
{"id": "C78", "title": "Choosing an offered declaration writes text that means it", "statement": "When no object or class stands in front of the cursor, every usable member, function, constant, superglobal and local variable is offered, and choosing one replaces the word at the cursor (with its $) by an expression that, at that place, names the chosen declaration (or the one overriding it), and nothing else.", "quantifier": "all class hierarchies and declarations, all places (methods, static methods, closures, functions, the file), all lines and typed prefixes", "why_tests_cant": "Which text is right depends on the kind, staticness, visibility, type and owner of the declaration and on the place; the tests look at the names offered in one method of one class.", "anchors": ["completion/item.cpp: NormalDeclarationCompletionItem::declarationName", "completion/context.cpp: CodeCompletionContext::completionItems, isValidCompletionItem", "completion/model.cpp: completionRange, shouldAbortCompletion", "duchain/types/integraltypeextended.cpp: IntegralTypeExtended", "duchain/builders/typebuilder.cpp: visitClassVariable"]}
{"id": "C79", "title": "The class named behind new by variables and properties is read to its end", "statement": "In `new $a->b::$c[$i]...` (and behind instanceof) every name is connected to the property of that name of the class of the value in front, or marked unknown when the class has none; a name behind a value of unknown class is connected to nothing; every expression in brackets or braces is looked at; and reading it never crashes.", "quantifier": "all class hierarchies, all chains of accesses of any length, all types of the variables", "why_tests_cant": "The chains are unbounded, and what happens to a part depends on what all parts before it left behind; the tests have a few short chains whose classes are known.", "anchors": ["duchain/expressionvisitor.cpp: visitClassNameReference, visitClassNameReferenceDimListItems, useDeclaration"]}
{"id": "C80", "title": "Call tips show the function each enclosing call runs", "statement": "While the arguments of a call are written, code completion shows one tip for each enclosing call of something known, the innermost call first. The tip shows the declaration that the call runs: the function or method called, the closure in the variable, and behind new the constructor of the class, which may be inherited. Without a constructor there is no tip.", "quantifier": "all lists of enclosing calls, all class hierarchies with any members, all declarations in the scopes around, and all moments at which completion is aborted", "why_tests_cant": "The constructor depends on all members of a class, of the classes above it and on what else has the same name; tests try single classes, while the claim is about every hierarchy and nesting of calls.", "anchors": ["completion/context.cpp: CodeCompletionContext::completionItems (1543-1595), isValidCompletionItem (1654-1664)", "duchain/builders/contextbuilder.cpp: addBaseType (429-459)"]}
{"id": "C81", "title": "Behind -> the members of every class the value may have are offered", "statement": "Behind $v-> completion offers the non-static members, behind $v:: the static ones, that a value of any class assigned to $v declares or inherits: each member an access reaches, and each once, whatever the order of the assignments.", "quantifier": "all class hierarchies with interfaces inherited along several ways, all histories of assigned types, both operators", "why_tests_cant": "Histories of assignments and hierarchies are unbounded, and whether a class counts depends on the order and form of all assigned types; tests have a union of two classes.", "anchors": ["completion/context.cpp: CodeCompletionContext::memberAccessContainers (1047-1080), completionItems (1356-1425)", "duchain/builders/declarationbuilder.cpp: declareVariable (1067-1132)"]}
{"id": "C82", "title": "Assigning to $this is reported, element assignments on ArrayAccess objects are not", "statement": "Assigning to $this is reported as an error wherever it stands. Assigning to an element of $this is reported exactly if the class does not implement ArrayAccess, directly or by way of others; if a class that is not abstract lacks some of the four methods, their number is reported.", "quantifier": "all class hierarchies with any names and methods, all types of the assigned value, all places", "why_tests_cant": "The outcome depends on the whole hierarchy and on the type of the value; tests have one class with and one without the methods.", "anchors": ["duchain/builders/declarationbuilder.cpp: declareVariable (1006-1064), visitAssignmentExpressionEqual (1268-1288)"]}
