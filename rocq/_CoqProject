-Q theories Verif
theories/Strings.v
theories/Nom.v
theories/Ast.v
theories/SpecF64.v
theories/MTerminals.v
theories/LF64.v
theories/MTriple.v
theories/MPath.v
theories/MExpr.v
theories/MQuery.v
theories/MUpdate.v
theories/RepoTests.v
theories/LNom.v
theories/LGood.v
theories/LGood2.v
theories/LayoutThen.v
theories/LGen.v
theories/LGen2.v
theories/LGen3.v
theories/LGen4.v
theories/P01Termination.v
theories/P02Suffix.v
theories/P03ErrorPositions.v
theories/P04Panics.v
theories/P05Incomplete.v
theories/Spec.v
theories/Spec2.v
theories/LSound.v
theories/LSound1.v
theories/LSound2.v
theories/LSound3.v
theories/LSound4.v
theories/LMono.v
theories/P16Soundness.v
theories/LEval.v
theories/LTok.v
theories/LTerm.v
theories/LName.v
theories/LName2.v
theories/LName3.v
theories/LNum.v
theories/LTerm2.v
theories/LProp1.v
theories/LInv.v
theories/P06Integers.v
theories/P07Doubles.v
theories/P08LimitOffset.v
theories/P09Strings.v
theories/P10Iris.v
theories/P11Variables.v
theories/P12PrefixedNames.v
theories/P13RdfLiterals.v
theories/P14Blanks.v
theories/P15KeywordCase.v
theories/P17QueryForms.v
theories/P18Queries.v
theories/P24Compatible.v
theories/P25Conversions.v
theories/P26Distinct.v
theories/Layout.v
theories/LRd.v
theories/LFirst.v
theories/LC1.v
theories/LEx.v
theories/LC2.v
theories/P19Values.v
theories/P27Prologue.v
theories/P28Datasets.v
theories/P30Templates.v
theories/P31Modifiers.v
theories/P32TrailingValues.v
theories/P33Quads.v
theories/P34Sequences.v
theories/LayoutPath.v
theories/LC3.v
theories/LNever.v
theories/LayoutExpr.v
theories/LC4.v
theories/LC5.v
theories/LC6.v
theories/LC7.v
theories/LayoutQuery.v
theories/LC8.v
theories/SpecCalls.v
theories/SpecQuery.v
theories/Print.v
theories/LCall.v
theories/LMods.v
theories/LCase.v
theories/LEx2.v
theories/P20Paths.v
theories/P21BuiltIns.v
theories/P22Operators.v
theories/P23Updates.v
theories/P29Collections.v
theories/LPrint1.v
theories/LPrint2.v
theories/LPrint3.v
theories/LPrint4.v
theories/LPrint5.v
theories/LPrint6.v
theories/PrintU.v
theories/LPrint7.v
theories/LPrintEx.v
theories/LPrintEx2.v
theories/Spec3.v
theories/LLead.v
theories/LFlags.v
theories/LFlags2.v
theories/LFlags3.v
theories/LFlags4.v
theories/P35LeadingBlanks.v
theories/P36Silent.v
theories/P37SelectModifiers.v
theories/P38Directions.v
theories/P39VerbA.v
theories/P40WordsApart.v
theories/P41RowWidths.v
theories/P42Describe.v
theories/P43Construct.v
theories/P44SubSelects.v
theories/P45FromThenGroup.v
theories/P46DefaultNames.v
theories/P47PatternKinds.v
theories/LMore1.v
theories/LMore2.v
theories/LObj.v
theories/LMore3.v
theories/LMore4.v
theories/SpecLeaves.v
theories/SpecSafe.v
theories/LLeaves.v
theories/LLeaves2.v
theories/SpecSize.v
theories/LSize.v
theories/LSize2.v
theories/LSize3.v
theories/SpecShape.v
theories/LSign.v
theories/LShape.v
theories/LShape2.v
theories/SpecFail.v
theories/LFail.v
theories/LFail2.v
theories/LSafe.v
theories/SpecCase.v
theories/LRecase1.v
theories/LRecase2.v
theories/LRecase3.v
theories/LRecase4.v
theories/LRecase5.v
theories/SpecBlank.v
theories/LBlank1.v
theories/LBlank2.v
theories/LBlank3.v
theories/LBlank4.v
theories/LBlank5.v
theories/SpecDepth.v
theories/LDepth.v
theories/LDepth2.v
theories/SpecCost.v
theories/LCost.v
theories/LCost2.v
theories/LCost3.v
theories/LWork.v
theories/LWork2.v
theories/LWork3.v
theories/SpecTame.v
theories/LTame0.v
theories/LTame.v
theories/LTame2.v
theories/LTame3.v
theories/LTameEx.v
theories/P48GluedKeywords.v
theories/P49GluedDeclarations.v
theories/P50GroupNames.v
theories/P51BooleanWords.v
theories/P52ObjectVariables.v
theories/P53Dots.v
theories/P54ListMembers.v
theories/P55Projection.v
theories/P56ClosingBrace.v
theories/P57Leaves.v
theories/P58Layout.v
theories/P59Depth.v
theories/P60Cost.v
theories/P61Safe.v
theories/P62Size.v
theories/P63Shape.v
theories/P64Fail.v
theories/P65Work.v
theories/P66Reprint.v
theories/SpecBlock.v
theories/LBlock1.v
theories/LBlock2.v
theories/LBlock3.v
theories/LBlock4.v
theories/LBlock5.v
theories/LBlock6.v
theories/P67Block.v
theories/SpecNest.v
theories/LNest.v
theories/LNest2.v
theories/LNest3.v
theories/LNest4.v
theories/P68Nest.v
theories/LEither.v
theories/P69Either.v
theories/LDecl.v
theories/P70Decl.v
theories/LSub.v
theories/P71SubSelect.v
theories/LTmpl.v
theories/P72Template.v
theories/LAlike.v
theories/P73Alike.v
theories/LForms.v
theories/P74Forms.v
theories/LWhere.v
theories/P75Where.v
theories/LPlace.v
theories/P76Place.v
theories/LVals.v
theories/P77Values.v
theories/LPred.v
theories/P78Predicates.v
theories/LArity.v
theories/P79Arity.v
theories/LSwap.v
theories/P80Keywords.v
theories/P81Named.v
theories/LIri.v
theories/P82Iris.v
theories/LLit.v
theories/P83Literals.v
theories/LBrackets.v
theories/P84Brackets.v
theories/LBraces.v
theories/P85Braces.v
theories/LUnion.v
theories/P86Union.v
theories/LPathIn.v
theories/P87PathBrackets.v
theories/LExists.v
theories/LItems.v
theories/P88Items.v
theories/LData.v
theories/P89Data.v
theories/LModify.v
theories/P90Insert.v
theories/LValues2.v
theories/P91Values.v
theories/LBlock7.v
theories/P67Forms.v
