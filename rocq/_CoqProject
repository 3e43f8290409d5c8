-Q theories Verif
theories/Base.v
theories/Utils.v
theories/CharSpec.v
theories/UtilsSpec.v
theories/UtilsProofs.v
theories/CharProofs.v
theories/Nth.v
theories/NthSpec.v
theories/NthProofs.v
theories/Attr.v
theories/AttrSpec.v
theories/AttrProofs.v
theories/AttrOrderProofs.v
theories/AttrMarkup.v
theories/ClassOps.v
theories/ClassSpec.v
theories/ClassProofs.v
theories/ClassExact.v
theories/Dom.v
theories/DomSpec.v
theories/Order.v
theories/DomProofs.v
theories/OrderSpec.v
theories/OrderProofs.v
theories/Sets.v
theories/SetsProofs.v
theories/AddProofs.v
theories/AddExact.v
theories/DomBuild.v
theories/DomBuildProofs.v
theories/Mutate.v
theories/MutateSpec.v
theories/MutateProofs.v
theories/InsertProofs.v
theories/HistoryProofs.v
theories/FrameProofs.v
theories/Engine.v
theories/Rules.v
theories/Regex.v
theories/Parse.v
theories/ParseSpec.v
theories/RegexProofs.v
theories/PatProofs.v
theories/NthText.v
theories/TokenProofs.v
theories/ParseProofs.v
theories/SelSpec.v
theories/ParseTotal.v
theories/ParsePanic.v
theories/ParseClosed.v
theories/NthSound.v
theories/Html.v
theories/HtmlSpec.v
theories/HtmlProofs.v
theories/Live.v
theories/LiveSpec.v
theories/LiveProofs.v
theories/PropsParse.v
theories/Locks.v
theories/PropsLocks.v
theories/PropsContains.v
theories/NavProofs.v
theories/OneProofs.v
theories/PreProofs.v
theories/SelBool.v
theories/SibLists.v
theories/SibProofs.v
theories/StepProofs.v
theories/BackProofs.v
theories/FilterProofs.v
theories/RuleProofs.v
theories/SelBuild.v
theories/FindSpec.v
theories/FindProofs.v
theories/FindRules.v
theories/SelectProofs.v
theories/FindBuild.v
theories/Traverse.v
theories/TravSpec.v
theories/StepSpec.v
theories/TravProofs.v
theories/StepWalk.v
theories/Query.v
theories/QueryProofs.v
theories/TextNodes.v
theories/Form.v
theories/TextSpec.v
theories/TextProofs.v
theories/FormProofs.v
theories/PropsFilter.v
theories/PropsRules.v
theories/PropsFind.v
theories/PropsTrav.v
theories/PropsQuery.v
theories/PropsNth.v
theories/PropsAttr.v
theories/PropsSets.v
theories/PropsMutate.v
theories/PropsText.v
theories/PropsLive.v
theories/PropsSetAttr.v
theories/PropsUtils.v
theories/Document.v
theories/DocumentSpec.v
theories/PropsDocument.v
theories/SetSpec.v
theories/SetTrav.v
theories/PropsSetTrav.v
theories/PropsSteps.v
theories/Template.v
theories/TemplateSpec.v
theories/TemplateProofs.v
theories/RegexText.v
theories/RegexSame.v
theories/TemplateRules.v
theories/PropsTemplate.v
theories/Load.v
theories/LoadSpec.v
theories/LoadProofs.v
theories/PropsLoad.v
theories/Values.v
theories/ValuesSpec.v
theories/ValuesProofs.v
theories/PropsValues.v
theories/Clone.v
theories/CloneSpec.v
theories/CloneProofs.v
theories/PropsClone.v
theories/SeveralProofs.v
theories/PropsSeveral.v
theories/PropsUnion.v
theories/TotalSpec.v
theories/Total.v
theories/TotalText.v
theories/PropsTotal.v
theories/Reports.v
theories/ReportsProofs.v
theories/ReportsStay.v
theories/PropsReports.v
theories/PropsWhole.v
theories/ReportsCount.v
theories/PropsCounts.v
theories/PropsLaws.v
theories/Borrow.v
theories/BorrowSpec.v
theories/BorrowProofs.v
theories/BorrowSets.v
theories/BorrowSetsProofs.v
theories/PropsBorrow.v
theories/Callback.v
theories/CallbackSpec.v
theories/CallbackProofs.v
theories/CallbackAny.v
theories/TextCallback.v
theories/PropsTextCallback.v
theories/PropsCallback.v
theories/PropsCallbackMore.v
theories/PropsCallbackInsert.v
theories/PropsCallbackRest.v
theories/PropsCallbackFragment.v
theories/StaleSpec.v
theories/StaleProofs.v
theories/PropsStale.v
theories/PropsClass.v
theories/PropsAttrAny.v
theories/ParseErr.v
theories/ParseErrProofs.v
theories/PropsErr.v
theories/TailSpec.v
theories/ParseTail.v
theories/PropsTail.v
theories/DeepSpec.v
theories/ParseDeep.v
theories/PropsDeep.v
theories/LooseSpec.v
theories/TokenSound.v
theories/ParseOnly.v
theories/PropsOnly.v
theories/Lifetime.v
theories/LifetimeSpec.v
theories/LifetimeProofs.v
theories/LifetimeQuery.v
theories/LifetimeForward.v
theories/LifetimeBack.v
theories/PropsLifetime.v
theories/PropsLifetimeMore.v
